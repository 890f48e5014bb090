(** * C46: the command line client does what its arguments say.

    The specification: [uuid_text] (the ways to write a uuid), [identifier_text],
    [asks] (the call a command line stands for) and [shows] (what is printed for
    the result of that call). *)
From Coq Require Import String.
From Verif Require Import Base OMap Json Types Util Db Mem Rdb Spec QueryFacts SpecFacts QueryTrust JsonFacts UtilFacts Utf8
  MemFacts MemRefine MemHist RdbSpec RdbRefine RdbHist Stages Effects Claims PropsMem PropsRdb Examples PropsMemIndex
  PropsRdbIndex PropsData Clean Proto ProtoFacts Server PropsProto JsonText PropsText PropsQuery Cli.

Set Implicit Arguments.
Local Open Scope list_scope.
Local Notation bytes := (list byte).

(** ** Uuid texts *)

(** Lower-case hexadecimal, two digits a byte. *)
Definition hexchar (n : N) : byte := byte_of (if (n <? 10)%N then 48 + n else 87 + n).
Definition hexes (b : byte) : bytes := [hexchar (bN b / 16); hexchar (bN b mod 16)].
Definition simple_text (u : uuid) : bytes := flat_map hexes (ub u).
(** 8-4-4-4-12, as [Display] writes it. *)
Definition hyphenated_text (u : uuid) : bytes :=
  let h := simple_text u in
  slice h 0 8 ++ x2d :: slice h 8 4 ++ x2d :: slice h 12 4 ++ x2d :: slice h 16 4 ++ x2d :: slice h 20 12.
(** ASCII letters to lower case. *)
Definition lower (b : byte) : byte := if (65 <=? bN b)%N && (bN b <=? 90)%N then byte_of (bN b + 32) else b.
Definition same_letters (s t : bytes) : Prop := map lower s = t.

Inductive uuid_text (u : uuid) : bytes -> Prop :=
| ut_simple s : same_letters s (simple_text u) -> uuid_text u s
| ut_hyphenated s : same_letters s (hyphenated_text u) -> uuid_text u s
| ut_braced s : same_letters s (hyphenated_text u) -> uuid_text u (x7b :: s ++ [x7d])
| ut_urn s : same_letters s (hyphenated_text u) -> uuid_text u (urn ++ s).

Lemma hexdigit_lower b : hexdigit b = hexdigit (lower b).
Proof. destruct b; reflexivity. Qed.
Lemma hexdigit_some b x : hexdigit b = Some x -> lower b = hexchar x /\ (x < 16)%N.
Proof. destruct b; vm_compute; intros E; inversion E; split; reflexivity. Qed.
Lemma hexdigit_char n : (n < 16)%N -> hexdigit (hexchar n) = Some n.
Proof.
  intros L. assert (n = 0 \/ n = 1 \/ n = 2 \/ n = 3 \/ n = 4 \/ n = 5 \/ n = 6 \/ n = 7 \/ n = 8 \/ n = 9 \/ n = 10 \/
    n = 11 \/ n = 12 \/ n = 13 \/ n = 14 \/ n = 15)%N as D by lia.
  repeat destruct D as [->|D]; try reflexivity. now subst.
Qed.
Lemma lower_hexchar n : (n < 16)%N -> lower (hexchar n) = hexchar n.
Proof.
  intros L. assert (n = 0 \/ n = 1 \/ n = 2 \/ n = 3 \/ n = 4 \/ n = 5 \/ n = 6 \/ n = 7 \/ n = 8 \/ n = 9 \/ n = 10 \/
    n = 11 \/ n = 12 \/ n = 13 \/ n = 14 \/ n = 15)%N as D by lia.
  repeat destruct D as [->|D]; try reflexivity. now subst.
Qed.
Lemma hexes_byte x y : (x < 16)%N -> (y < 16)%N -> hexes (byte_of (16 * x + y)) = [hexchar x; hexchar y].
Proof.
  intros Hx Hy. unfold hexes. rewrite bN_byte_of, (N.mod_small _ 256) by lia. replace (16 * x + y)%N with (y + x * 16)%N by lia.
  now rewrite N.div_add, N.mod_add, N.div_small, N.mod_small by lia.
Qed.

Lemma Some_inj {A} (x y : A) : Some x = Some y -> x = y.
Proof. congruence. Qed.
Lemma list2_ind (P : bytes -> Prop) : P [] -> (forall a, P [a]) -> (forall a b s, P s -> P (a :: b :: s)) -> forall s, P s.
Proof.
  intros H0 H1 H2. assert (forall s, P s /\ forall a, P (a :: s)) as X.
  { induction s as [|a s [I1 I2]]; [auto|]. split; [apply I2|]. intros b. now apply H2. }
  intros s. apply X.
Qed.
Lemma pairs_iff s : forall l, pairs s = Some l <-> map lower s = flat_map hexes l.
Proof.
  induction s as [|a|a b s IH] using list2_ind; intros l.
  - cbn. split; [intros E; inversion E; reflexivity|]. destruct l; [reflexivity|discriminate].
  - cbn. split; [discriminate|]. destruct l; discriminate.
  - cbn [pairs map]. split.
    + destruct (hexdigit a) as [x|] eqn:Ea; [|discriminate]. destruct (hexdigit b) as [y|] eqn:Eb; [|discriminate].
      destruct (pairs s) as [r|]; [|discriminate]. intros E. apply Some_inj in E. subst l. cbn [flat_map].
      apply hexdigit_some in Ea as [-> La], Eb as [-> Lb]. rewrite hexes_byte by assumption. cbn [app]. do 2 f_equal. now apply IH.
    + destruct l as [|c l]; [discriminate|]. cbn [flat_map]. unfold hexes at 1. cbn [app]. intros E.
      pose proof (bN_bound c) as Lc.
      assert (bN c / 16 < 16)%N as D1 by (apply N.div_lt_upper_bound; lia).
      assert (bN c mod 16 < 16)%N as D2 by (apply N.mod_lt; lia).
      assert (lower a = hexchar (bN c / 16)) as Ea by congruence.
      assert (lower b = hexchar (bN c mod 16)) as Eb by congruence.
      assert (map lower s = flat_map hexes l) as Es by congruence. apply IH in Es.
      rewrite hexdigit_lower, Ea, hexdigit_char by assumption. rewrite (hexdigit_lower b), Eb, hexdigit_char by assumption. rewrite Es.
      do 2 f_equal. rewrite <- N.div_mod by lia. apply byte_of_bN.
Qed.
Lemma mk_uuid_iff l u : mk_uuid l = Some u <-> ub u = l.
Proof.
  unfold mk_uuid. split.
  - destruct (Bool.bool_dec _ _) as [E|E]; [|discriminate]. intros X. inversion X. reflexivity.
  - intros <-. destruct (Bool.bool_dec _ _) as [E|E].
    + enough (exist (fun x : bytes => (Datatypes.length x =? 16) = true) (ub u) E = u) as -> by reflexivity. now apply ub_inj.
    + destruct E. rewrite ub_length. reflexivity.
Qed.
Lemma simple_iff s u : parse_simple s = Some u <-> same_letters s (simple_text u).
Proof.
  unfold parse_simple, same_letters, simple_text. split.
  - destruct (pairs s) as [l|] eqn:E; [|discriminate]. rewrite mk_uuid_iff. intros ->. now apply pairs_iff.
  - intros E. apply pairs_iff in E. rewrite E. now apply mk_uuid_iff.
Qed.
Lemma simple_length u : length (simple_text u) = 32.
Proof.
  unfold simple_text. assert (forall l, length (flat_map hexes l) = 2 * length l)%nat as F by (induction l; cbn in *; lia).
  now rewrite F, ub_length.
Qed.
Lemma lower_hyphen b : lower b = x2d -> b = x2d.
Proof. destruct b; vm_compute; congruence. Qed.
Ltac spread l L := 
  do 40 (try (destruct l as [|? l]; [discriminate L|])); destruct l; [|discriminate L]; clear L.
Lemma hyphenated_iff s u : parse_hyphenated s = Some u <-> same_letters s (hyphenated_text u).
Proof.
  unfold parse_hyphenated, same_letters, hyphenated_text. split.
  - destruct (Nat.eqb_spec (length s) 36) as [L|L]; [|discriminate]. cbn [negb].
    destruct (_ && _)%bool eqn:Hy; [|discriminate]. rewrite simple_iff. unfold same_letters. intros <-.
    do 36 (destruct s as [|? s]; [discriminate L|]). destruct s; [|discriminate L]. clear L.
    unfold hyphen_at in Hy. cbn [nth_error] in Hy. rewrite !andb_true_iff, !N.eqb_eq in Hy. destruct Hy as (((H1 & H2) & H3) & H4).
    apply (bN_inj _ x2d) in H1, H2, H3, H4. subst. reflexivity.
  - pose proof (simple_length u) as L. pose proof (proj2 (simple_iff (simple_text u) u)) as F.
    assert (same_letters (simple_text u) (simple_text u)) as Lo.
    { unfold same_letters, simple_text. clear. induction (ub u) as [|b l IH]; [reflexivity|]. cbn [flat_map]. rewrite map_app, IH. f_equal.
      unfold hexes. cbn [map]. pose proof (bN_bound b). rewrite !lower_hexchar; [reflexivity| |].
      - apply N.mod_lt; lia.
      - apply N.div_lt_upper_bound; lia. }
    clear F. remember (simple_text u) as h eqn:Eh.
    do 32 (destruct h as [|? h]; [discriminate L|]). destruct h; [|discriminate L]. clear L Lo. cbn.
    intros E. assert (length s = 36) as L by (rewrite <- (map_length lower), E; reflexivity). rewrite L. cbn [Nat.eqb negb].
    do 36 (destruct s as [|? s]; [discriminate L|]). destruct s; [|discriminate L]. clear L.
    cbn [map] in E. injection E as E. 
    repeat match goal with H : lower _ = x2d |- _ => apply lower_hyphen in H; subst end. cbn -[parse_simple].
    apply simple_iff. unfold same_letters. rewrite <- Eh. cbn [map]. congruence.
Qed.
Lemma strip_iff p : forall s r, strip p s = Some r <-> s = p ++ r.
Proof.
  induction p as [|a p IH]; intros s r; cbn.
  - split; [intros E; inversion E; reflexivity|now intros ->].
  - destruct s as [|b s]; [split; discriminate|]. destruct (N.eqb_spec (bN a) (bN b)) as [E|E].
    + apply bN_inj in E. subst b. rewrite IH. split; [now intros ->|intros X; inversion X; reflexivity].
    + split; [discriminate|]. intros X. inversion X. subst. now destruct E.
Qed.
Lemma hyphenated_length u : length (hyphenated_text u) = 36.
Proof.
  unfold hyphenated_text. pose proof (simple_length u) as L. remember (simple_text u) as h.
  do 32 (destruct h as [|? h]; [discriminate L|]). destruct h; [reflexivity|discriminate L].
Qed.

(** A string is read as the uuid [u] exactly when it is one of the four ways of
    writing [u], in any case of letters. *)
Theorem C46_uuid_text s u : parse_uuid s = Some u <-> uuid_text u s.
Proof.
  unfold parse_uuid. split.
  - destruct (Nat.eqb_spec (length s) 32) as [_|_].
    { intros E. apply ut_simple. now apply simple_iff. }
    destruct (Nat.eqb_spec (length s) 36) as [_|_].
    { intros E. apply ut_hyphenated. now apply hyphenated_iff. }
    destruct (Nat.eqb_spec (length s) 38) as [L|_].
    { destruct s as [|b r]; [discriminate|]. destruct (_ && _)%bool eqn:B; [|discriminate].
      apply andb_true_iff in B as [B1 B2]. apply N.eqb_eq in B1, B2. apply (bN_inj _ x7b) in B1. apply (bN_inj _ x7d) in B2. subst b.
      intros E. apply hyphenated_iff in E. rewrite (@app_removelast_last _ r x00) by (intros ->; discriminate L). rewrite B2.
      now apply ut_braced. }
    destruct (Nat.eqb_spec (length s) 45) as [L|_]; [|discriminate].
    destruct (strip urn s) as [r|] eqn:E; [|discriminate]. apply strip_iff in E. subst s. intros E. apply hyphenated_iff in E. now apply ut_urn.
  - assert (forall t k, same_letters t k -> length t = length k) as SL by (intros t k <-; now rewrite map_length).
    intros [t E|t E|t E|t E]; pose proof (SL _ _ E) as L; rewrite ?simple_length, ?hyphenated_length in L.
    + rewrite L. cbn [Nat.eqb]. now apply simple_iff.
    + rewrite L. cbn [Nat.eqb]. now apply hyphenated_iff.
    + cbn [length]. rewrite app_length, L. cbn [length Nat.add Nat.eqb]. rewrite last_last, removelast_last. cbn -[parse_hyphenated].
      now apply hyphenated_iff.
    + rewrite app_length, L. cbn [length urn Nat.add Nat.eqb]. replace (strip urn (urn ++ t)) with (Some t) by (symmetry; now apply strip_iff).
      now apply hyphenated_iff.
Qed.
(** The text [Display] and [Debug] print for an id names that id and no other. *)
Theorem C46_uuid_printed u : parse_uuid (hyphenated_text u) = Some u.
Proof.
  apply C46_uuid_text, ut_hyphenated. unfold same_letters.
  assert (map lower (simple_text u) = simple_text u) as Lo.
  { unfold simple_text. induction (ub u) as [|b l IH]; [reflexivity|]. cbn [flat_map]. rewrite map_app, IH. f_equal.
    unfold hexes. cbn [map]. pose proof (bN_bound b). rewrite !lower_hexchar; [reflexivity| |].
    - apply N.mod_lt; lia.
    - apply N.div_lt_upper_bound; lia. }
  unfold hyphenated_text, slice. repeat (rewrite map_app || (cbn [map]; change (lower x2d) with x2d)).
  rewrite <- !firstn_map, <- !skipn_map, Lo. reflexivity.
Qed.
Theorem C46_uuid_unambiguous s u u' : uuid_text u s -> uuid_text u' s -> u = u'.
Proof. intros A B. apply C46_uuid_text in A, B. congruence. Qed.

(** ** Commands *)

(** A string of at most 255 bytes of UTF-8 whose characters are dashes,
    underscores or alphanumeric, and the identifier with these bytes. *)
Definition identifier_text (alnum : N -> bool) (i : ident) (s : bytes) : Prop :=
  ib i = s /\ (length s <= 255)%nat /\
  exists cs, Forall scalar_value cs /\ s = flat_map utf8_enc cs /\
             Forall (fun c => c = 45%N \/ c = 95%N \/ alnum c = true) cs.

Section Spec.
  Variable alnum : N -> bool.
  (** The JSON reader. *)
  Variable dec : bytes -> option json.
  Notation names := (identifier_text alnum).

  Inductive edge_args (e : edge) : bytes -> bytes -> bytes -> Prop :=
  | ea o t i : uuid_text (eout e) o -> names (et e) t -> uuid_text (ein e) i -> edge_args e o t i.
  Definition maybe_named (n : option ident) (s : option bytes) : Prop :=
    match n, s with
    | Some n, Some s => names n s
    | None, None => True
    | _, _ => False
    end.

  (** The call a command with arguments in order stands for; [drawn] is the id
      drawn for a vertex set without [--id]. *)
  Inductive asks (drawn : uuid) : cmd -> ccall -> Prop :=
  | a_ping : asks drawn KPing CPing
  | a_set_vertex t s u su : names t s -> uuid_text u su -> asks drawn (KSetVertex s (Some su)) (CCreateVertex (Vertex u t))
  | a_set_new_vertex t s : names t s -> asks drawn (KSetVertex s None) (CCreateVertex (Vertex drawn t))
  | a_set_edge e o t i : edge_args e o t i -> asks drawn (KSetEdge o t i) (CCreateEdge e)
  | a_set_vprop u su n sn v sv : uuid_text u su -> names n sn -> dec sv = Some v ->
      asks drawn (KSetVertexProperty su sn sv) (CSetProperties (QSpecificVertex [u]) n v)
  | a_set_eprop e o t i n sn v sv : edge_args e o t i -> names n sn -> dec sv = Some v ->
      asks drawn (KSetEdgeProperty o t i sn sv) (CSetProperties (QSpecificEdge [e]) n v)
  | a_count_vertex : asks drawn KCountVertex (CGet (QCount QAllVertex))
  | a_count_edge : asks drawn KCountEdge (CGet (QCount QAllEdge))
  | a_get_vertex u su : uuid_text u su -> asks drawn (KGetVertex su) (CGet (QSpecificVertex [u]))
  | a_get_edge e o t i : edge_args e o t i -> asks drawn (KGetEdge o t i) (CGet (QSpecificEdge [e]))
  | a_get_vprops u su n sn : uuid_text u su -> maybe_named n sn ->
      asks drawn (KGetVertexProperty su sn) (CGet (QPipeProperty (QSpecificVertex [u]) n))
  | a_get_eprops e o t i n sn : edge_args e o t i -> maybe_named n sn ->
      asks drawn (KGetEdgeProperty o t i sn) (CGet (QPipeProperty (QSpecificEdge [e]) n))
  | a_delete_vertex u su : uuid_text u su -> asks drawn (KDeleteVertex su) (CDelete (QSpecificVertex [u]))
  | a_delete_edge e o t i : edge_args e o t i -> asks drawn (KDeleteEdge o t i) (CDelete (QSpecificEdge [e]))
  | a_delete_vprop u su n sn : uuid_text u su -> names n sn ->
      asks drawn (KDeleteVertexProperty su sn) (CDelete (QPipeProperty (QSpecificVertex [u]) (Some n)))
  | a_delete_eprop e o t i n sn : edge_args e o t i -> names n sn ->
      asks drawn (KDeleteEdgeProperty o t i sn) (CDelete (QPipeProperty (QSpecificEdge [e]) (Some n))).
End Spec.

(** What is printed for the call's local result.  A failed call is an error
    from the server; a panicking one too, except that a panicking [get] is
    shown as if there were no results, and a panicking count crashes the
    client. *)
Inductive shows : ccall -> outcome res -> exit -> Prop :=
| sh_vertex v : shows (CCreateVertex v) (Ok (RBoolean true)) (Printed (PVertex v))
| sh_taken v : shows (CCreateVertex v) (Ok (RBoolean false)) (Failed ETaken)
| sh_edge e : shows (CCreateEdge e) (Ok (RBoolean true)) (Printed (PEdge e))
| sh_invalid e : shows (CCreateEdge e) (Ok (RBoolean false)) (Failed EVertexInvalid)
| sh_set q n v : shows (CSetProperties q n v) (Ok RUnit) (Printed PNothing)
| sh_delete q : shows (CDelete q) (Ok RUnit) (Printed PNothing)
| sh_count q n : shows (CGet (QCount q)) (Ok (ROut [Count n])) (Printed (PCount n))
| sh_vertices q l : shows (CGet q) (Ok (ROut [Vertices l])) (Printed (PVertices (Some l)))
| sh_edges q l : shows (CGet q) (Ok (ROut [Edges l])) (Printed (PEdges (Some l)))
| sh_vprops q l : shows (CGet q) (Ok (ROut [VertexProperties l])) (Printed (PVertexProperties (Some l)))
| sh_eprops q l : shows (CGet q) (Ok (ROut [EdgeProperties l])) (Printed (PEdgeProperties (Some l)))
| sh_err c e : shows c (Err e) (Failed (EClient (CGrpc (SInternal (BecauseError e)))))
| sh_panic c : (forall q, c <> CGet q) -> shows c Panic (Failed (EClient (CGrpc (SInternal BecausePanic))))
| sh_count_panic q : shows (CGet (QCount q)) Panic Crashed
| sh_no_vertices us : shows (CGet (QSpecificVertex us)) Panic (Printed (PVertices None))
| sh_no_edges es : shows (CGet (QSpecificEdge es)) Panic (Printed (PEdges None))
| sh_no_vprops us n : shows (CGet (QPipeProperty (QSpecificVertex us) n)) Panic (Printed (PVertexProperties None))
| sh_no_eprops es n : shows (CGet (QPipeProperty (QSpecificEdge es) n)) Panic (Printed (PEdgeProperties None)).

Section Commands.
  Variable alnum : N -> bool.
  Variable enc : json -> bytes.
  Variable dec : bytes -> option json.
  Variables St Env : Type.
  Variable step : St -> Env * op -> outcome res * St.
  Notation run := (run alnum enc dec step).
  Notation asks := (asks alnum dec).

  (** A successful query answers with one value of its kind for every included
      result (C43). *)
  Definition shaped : Prop := forall st env q l, fst (step st (env, OGet q)) = Ok (ROut l) ->
    exists ex v, l = ex ++ [v] /\ result_kind q = Some (kind_of_out v) /\ length ex = length (included q).

  Lemma names_new i s : identifier_text alnum i s <-> ident_new alnum s = VOk i.
  Proof. symmetry. apply C36_identifier_new. Qed.

  (** The command lines are unambiguous. *)
  Theorem C46_unambiguous d c a b : asks d c a -> asks d c b -> a = b.
  Proof.
    assert (forall i j s, identifier_text alnum i s -> identifier_text alnum j s -> i = j) as N.
    { intros i j s [X _] [Y _]. apply ib_inj. congruence. }
    assert (forall e f o t i, edge_args alnum e o t i -> edge_args alnum f o t i -> e = f) as E.
    { intros [a1 b1 c1] [a2 b2 c2] o t i X Y. inversion X; inversion Y; subst; cbn in *. f_equal; eauto using C46_uuid_unambiguous. }
    assert (forall m n s, maybe_named alnum m s -> maybe_named alnum n s -> m = n) as M.
    { intros [m|] [n|] [s|]; cbn; try tauto. intros X Y. f_equal. eauto. }
    intros A B. destruct A; inversion B; subst; repeat f_equal;
      solve [eauto using C46_uuid_unambiguous | congruence].
  Qed.

  (** How the answer to each call is shown. *)
  Definition display (c : ccall) (a : answer) : exit :=
    match c with
    | CPing => Printed POk
    | CCreateVertex v => if refused a then Failed ETaken else Printed (PVertex v)
    | CCreateEdge e => if refused a then Failed EVertexInvalid else Printed (PEdge e)
    | CGet (QCount _) => count_of a
    | CGet (QSpecificVertex _) => Printed (PVertices (extract_vertices (values a)))
    | CGet (QSpecificEdge _) => Printed (PEdges (extract_edges (values a)))
    | CGet (QPipeProperty (QSpecificVertex _) _) => Printed (PVertexProperties (extract_vertex_properties (values a)))
    | CGet _ => Printed (PEdgeProperties (extract_edge_properties (values a)))
    | _ => Printed PNothing
    end.

  Lemma run_cases ps st env fresh d c :
    (exists e, run ps st env fresh d c = (Failed e, st) /\ forall x, ~ asks d c x) \/
    (exists x, asks d c x /\ run ps st env fresh d c = call alnum enc dec step ps st env fresh x (display x)).
  Proof.
    assert (forall s u, parse_uuid s = Some u -> uuid_text u s) as U by (intros; now apply C46_uuid_text).
    assert (forall s u, parse_uuid s = None -> uuid_text u s -> False) as NU.
    { intros s u E T. apply C46_uuid_text in T. congruence. }
    assert (forall s i, ident_new alnum s = VOk i -> identifier_text alnum i s) as I by (intros; now apply names_new).
    assert (forall s e i, ident_new alnum s = VErr _ e -> identifier_text alnum i s -> False) as NI.
    { intros s e i E T. apply names_new in T. congruence. }
    assert (forall e o t i, edge_args alnum e o t i -> uuid_text (eout e) o /\ identifier_text alnum (et e) t /\ uuid_text (ein e) i) as EA.
    { intros e o t i X. inversion X. auto. }
    assert (forall n s, maybe_named alnum n (Some s) -> exists i, identifier_text alnum i s) as MN.
    { intros [n|] s; cbn; [eauto|tauto]. }
    destruct c; unfold Cli.run, build_edge, vertex_query, builds, count_new, pipe_property_new, identifier, uuid_arg, json_arg;
      cbn [output_type elem_kind countable_kind with_name];
      repeat match goal with
      | |- context [match ?o with Some _ => _ | None => _ end] => is_var o; destruct o
      | |- context [ident_new alnum ?s] => destruct (ident_new alnum s) eqn:?
      | |- context [parse_uuid ?s] => destruct (parse_uuid s) eqn:?
      | |- context [dec ?s] => destruct (dec s) eqn:?
      end;
      try (left; eexists; split; [reflexivity|]; intros x A; inversion A; subst;
           repeat match goal with
           | X : edge_args _ _ _ _ _ |- _ => apply EA in X as (? & ? & ?)
           | X : maybe_named _ _ (Some _) |- _ => apply MN in X as (? & ?)
           end; solve [eauto | congruence]);
      right; (match goal with |- context [call alnum enc dec step ps st env fresh ?x _] => exists x end; split; [|reflexivity]);
      econstructor; eauto; try (unfold maybe_named; now eauto); try (apply ea; cbn; now eauto).
  Qed.

  (** A command whose arguments stand for no call fails and nothing happens. *)
  Theorem C46_invalid_no_effect ps st env fresh d c : (forall x, ~ asks d c x) ->
    exists e, run ps st env fresh d c = (Failed e, st).
  Proof.
    intros NA. destruct (run_cases ps st env fresh d c) as [(e & E & _)|(x & A & _)]; [eauto|]. destruct (NA _ A).
  Qed.

  (** A command whose arguments stand for a call has the effect of that call on
      the database, and prints its result. *)
  Theorem C46_command_partial ps st env fresh d c x o r st' :
    kinded step -> shaped -> asks d c x -> db_call fresh x = Some o ->
    sendable alnum enc dec (call_idents x) (call_values x) ->
    step st (env, o) = (r, st') ->
    (forall l, r = Ok (ROut l) -> Forall (sendable_out alnum enc dec) l) ->
    exists e, run ps st env fresh d c = (e, st') /\ shows x r e.
  Proof.
    intros K Sh A D Se E SA. destruct (run_cases ps st env fresh d c) as [(e & _ & N)|(x' & A' & R)]; [destruct (N _ A)|].
    assert (x' = x) as -> by (eapply C46_unambiguous; eauto). rewrite R. clear R A'.
    destruct (@C35_remote_is_local_partial alnum enc dec _ _ step ps st env fresh x o r st' K D Se E SA) as (a & Ra & Rep).
    unfold call. rewrite Ra. specialize (K st env o). specialize (Sh st env). rewrite E in K. cbn [fst] in K.
    destruct r as [res|er|].
    - specialize (K res eq_refl).
      assert (forall q l, o = OGet q -> res = ROut l -> result_kind q <> None -> included q = [] ->
        exists v, l = [v] /\ result_kind q = Some (kind_of_out v)) as One.
      { intros q l -> -> _ In. specialize (Sh q l). rewrite E in Sh. destruct (Sh eq_refl) as (ex & v & -> & Kv & L).
        rewrite In in L. destruct ex; [|discriminate]. exists v. auto. }
      destruct A; cbn [db_call] in D; inversion D; subst o; clear D; cbn in K;
        try (destruct K as (b & ->); inversion Rep; subst; destruct b; eexists; split; try reflexivity; constructor);
        try (subst res; inversion Rep; subst; eexists; split; [reflexivity|constructor]);
        destruct K as (l & ->); (destruct (One _ _ eq_refl eq_refl) as (v & -> & Kv); [discriminate|reflexivity|]);
        inversion Rep; subst; destruct v; cbn in Kv; inversion Kv; (eexists; split; [reflexivity|]); constructor.
    - inversion Rep; subst. eexists. split; [reflexivity|constructor].
    - destruct A; cbn [db_call] in D; inversion D; subst o; clear D;
        try (inversion Rep; subst; eexists; split; [reflexivity|constructor]; discriminate);
        (inversion Rep as [| | | | |? NG|]; subst; [exfalso; eapply NG; reflexivity|eexists; split; [reflexivity|constructor]]).
  Qed.
  Theorem C46_ping ps st env fresh d : run ps st env fresh d KPing = (Printed POk, st).
  Proof. reflexivity. Qed.
End Commands.

(** ** Sessions on the two backends *)
Lemma mem_shaped dbg : shaped (mem_step dbg).
Proof.
  intros [m|] env q l; cbn [mem_step fst snd]; [|discriminate]. cbn [exec]. destruct (db_get (mem_ops dbg env) m q) as [outs|e|] eqn:E; cbn; intros X; inversion X; subst.
  eapply C43_result_kind; eauto.
Qed.
Lemma rdb_shaped H enc dec : shaped (rdb_step H enc dec).
Proof.
  intros s env q l. unfold rdb_step. cbn [fst snd exec]. destruct (db_get (rdb_ops H enc dec env) s q) as [outs|e|] eqn:E; cbn; intros X; inversion X; subst.
  eapply C43_result_kind; eauto.
Qed.

Section Sessions.
  Variable alnum : N -> bool.
  Variable enc : json -> bytes.
  Variable dec : bytes -> option json.

  (** One invocation: the environment of the database call, the id a server
      would draw (unused by these commands), the id the client draws, and the
      command. *)
  Record invocation (Env : Type) := Invoke { i_env : Env; i_fresh : uuid; i_drawn : uuid; i_cmd : cmd }.

  (** The database calls a list of commands stands for: commands with bad
      arguments and pings have none. *)
  Inductive session {Env} : list (invocation Env) -> list (Env * op) -> Prop :=
  | s_nil : session [] []
  | s_none xs os x : session xs os ->
      (forall c, asks alnum dec (i_drawn x) (i_cmd x) c -> db_call (i_fresh x) c = None) -> session (xs ++ [x]) os
  | s_call xs os x c o : session xs os -> asks alnum dec (i_drawn x) (i_cmd x) c -> db_call (i_fresh x) c = Some o ->
      session (xs ++ [x]) (os ++ [(i_env x, o)]).

  (** The value argument of a command, if it is JSON, is read back after being
      written. *)
  Definition value_ok {Env} (x : invocation Env) : Prop :=
    forall c, asks alnum dec (i_drawn x) (i_cmd x) c -> Forall (text_ok enc dec) (call_values c).

  (** All commands, one after the other. *)
  Definition run_all {St Env} (step : St -> Env * op -> outcome res * St) (ps : plugins St) (st : St) (xs : list (invocation Env)) : St :=
    fold_left (fun s x => snd (run alnum enc dec step ps s (i_env x) (i_fresh x) (i_drawn x) (i_cmd x))) xs st.
  Lemma run_all_snoc {St Env} (step : St -> Env * op -> outcome res * St) ps st xs x :
    run_all step ps st (xs ++ [x]) = snd (run alnum enc dec step ps (run_all step ps st xs) (i_env x) (i_fresh x) (i_drawn x) (i_cmd x)).
  Proof. unfold run_all. now rewrite fold_left_app. Qed.

  Lemma asks_idents d c x : asks alnum dec d c x -> Forall (valid_ident alnum) (call_idents x).
  Proof.
    assert (forall i s, identifier_text alnum i s -> valid_ident alnum i) as V by (intros i s X; exists s; now apply C36_identifier_new).
    intros [| | |e o t i [? ? ? ? ? ?]| |e o t i n sn v sv [? ? ? ? ? ?]| | | |e o t i [? ? ? ? ? ?]|u su n sn ? Mn|e o t i n sn [? ? ? ? ? ?] Mn| |e o t i [? ? ? ? ? ?]| |e o t i n sn [? ? ? ? ? ?]]; cbn;
      repeat (constructor; eauto); destruct n as [n|], sn as [sn|]; cbn in *; repeat (constructor; eauto); destruct Mn.
  Qed.
  Lemma asks_tidy d c x fresh o : asks alnum dec d c x -> db_call fresh x = Some o ->
    (forall g, tidy_op g o) /\ (forall g, rtidy_op g o) /\ (forall n, o <> OIndexProperty n) /\
    (Forall (text_ok enc dec) (call_values x) -> good_op enc dec o).
  Proof.
    intros [] D; cbn in D; inversion D; subst; conj; cbn; auto; try discriminate; intros F; exact (Forall_inv F).
  Qed.
  Lemma asks_sendable {Env} (x : invocation Env) c : value_ok x -> asks alnum dec (i_drawn x) (i_cmd x) c ->
    sendable alnum enc dec (call_idents c) (call_values c).
  Proof. intros V A. split; [eapply asks_idents; eauto|eapply V; eauto]. Qed.

  Lemma session_ops {Env} (xs : list (invocation Env)) os : session xs os -> Forall value_ok xs ->
    Forall (fun y => (forall g, tidy_op g (snd y)) /\ (forall g, rtidy_op g (snd y)) /\ (forall n, snd y <> OIndexProperty n) /\
      good_op enc dec (snd y) /\ clean_op (valid_ident alnum) (text_ok enc dec) (snd y)) os.
  Proof.
    induction 1 as [|xs os x _ IH _|xs os x c o _ IH A D]; intros F; [constructor|apply Forall_app in F as [F _]; auto|].
    apply Forall_app in F as [F1 F2]. apply Forall_inv in F2. apply Forall_app. split; [auto|]. constructor; [|constructor]. cbn [snd].
    destruct (asks_tidy _ A D) as (T1 & T2 & T3 & T4). conj; auto.
    eapply sendable_op; [exact D|]. eapply asks_sendable; eauto.
  Qed.

  (** The next command after a session: it either stands for no call and fails
      without effect, or has the effect of its call and prints its result. *)
  Definition obeys {St Env} (step : St -> Env * op -> outcome res * St) (ps : plugins St) (st : St) (x : invocation Env) : Prop :=
    let out := run alnum enc dec step ps st (i_env x) (i_fresh x) (i_drawn x) (i_cmd x) in
    (i_cmd x = KPing /\ out = (Printed POk, st)) \/
    ((forall c, ~ asks alnum dec (i_drawn x) (i_cmd x) c) /\ exists e, out = (Failed e, st)) \/
    (exists c o e, asks alnum dec (i_drawn x) (i_cmd x) c /\ db_call (i_fresh x) c = Some o /\
       out = (e, snd (step st (i_env x, o))) /\ shows c (fst (step st (i_env x, o))) e).

  Lemma obeys_step {St Env} (step : St -> Env * op -> outcome res * St) ps st (x : invocation Env) :
    kinded step -> shaped step -> value_ok x ->
    (forall c o, asks alnum dec (i_drawn x) (i_cmd x) c -> db_call (i_fresh x) c = Some o ->
       sendable_answer alnum enc dec (fst (step st (i_env x, o)))) ->
    obeys step ps st x.
  Proof.
    intros K Sh V SA. unfold obeys.
    destruct (@run_cases alnum enc dec _ _ step ps st (i_env x) (i_fresh x) (i_drawn x) (i_cmd x)) as [(e & E & N)|(c & A & R)].
    { right. left. eauto. }
    destruct (db_call (i_fresh x) c) as [o|] eqn:D.
    - right. right. destruct (step st (i_env x, o)) as [r st'] eqn:E.
      destruct (@C46_command_partial alnum enc dec _ _ step ps st (i_env x) (i_fresh x) (i_drawn x) (i_cmd x) c o r st' K Sh A D (asks_sendable V A) E) as (e & Ee & Hs).
      + specialize (SA c o A D). rewrite E in SA. exact SA.
      + exists c, o, e. rewrite E. cbn [fst snd]. auto.
    - left. revert R. inversion A; subst; cbn in D; try discriminate. intros R. split; reflexivity.
  Qed.
  Lemma obeys_none {St Env} (step : St -> Env * op -> outcome res * St) ps st (x : invocation Env) :
    (forall c, asks alnum dec (i_drawn x) (i_cmd x) c -> db_call (i_fresh x) c = None) -> obeys step ps st x ->
    snd (run alnum enc dec step ps st (i_env x) (i_fresh x) (i_drawn x) (i_cmd x)) = st.
  Proof.
    intros N [[_ E]|[(_ & e & E)|(c & o & e & A & D & _)]]; [now rewrite E|now rewrite E|]. apply N in A. congruence.
  Qed.
  Lemma obeys_some {St Env} (step : St -> Env * op -> outcome res * St) ps st (x : invocation Env) c o :
    asks alnum dec (i_drawn x) (i_cmd x) c -> db_call (i_fresh x) c = Some o -> obeys step ps st x ->
    snd (run alnum enc dec step ps st (i_env x) (i_fresh x) (i_drawn x) (i_cmd x)) = snd (step st (i_env x, o)).
  Proof.
    intros A D [[E _]|[(N & _)|(c' & o' & e & A' & D' & E & _)]].
    - rewrite E in A. inversion A; subst. discriminate.
    - destruct (N _ A).
    - assert (c' = c) as -> by (eapply C46_unambiguous; eauto). assert (o' = o) as -> by congruence. now rewrite E.
  Qed.

  Lemma mem_obeys ps xs os x : session xs os -> Forall value_ok (xs ++ [x]) -> obeys (mem_step true) ps (mem_run true os) x.
  Proof.
    intros Se F. apply Forall_app in F as [F1 F2]. apply Forall_inv in F2. pose proof (session_ops Se F1) as SO.
    apply obeys_step; [apply mem_kinded|apply mem_shaped|assumption|]. intros c o A D.
    destruct (asks_tidy _ A D) as (T1 & _ & _ & _).
    assert (Forall (sendable_answer alnum enc dec) (fst (local_trace (mem_step true) (mem_run true os) [(i_env x, o)]))) as X.
    { apply mem_answers.
      - intros h1 y h2 m E _. assert (In y (os ++ [(i_env x, o)])) as Hy by (rewrite E; apply in_elt).
        apply in_app_or in Hy as [Hy|[<-|[]]]; [|apply T1]. rewrite Forall_forall in SO. now apply SO.
      - apply Forall_app. split; [eapply Forall_impl; [|exact SO]; cbn; tauto|]. constructor; [|constructor].
        eapply sendable_op; [exact D|]. eapply asks_sendable; eauto. }
    cbn [local_trace] in X. destruct (mem_step true (mem_run true os) (i_env x, o)) as [r st']. now apply Forall_inv in X.
  Qed.

  (** A server over a fresh in-memory database (debug build), used through the
      command line client only: whatever the command lines, the database is the
      one the calls they stand for would have made, and the next command is
      obeyed. *)
  Theorem C46_memory_session_partial ps xs os x : session xs os -> Forall value_ok (xs ++ [x]) ->
    run_all (mem_step true) ps (Some mem_empty) xs = mem_run true os /\ obeys (mem_step true) ps (mem_run true os) x.
  Proof.
    intros Se F. split; [|now apply mem_obeys with (xs := xs)]. apply Forall_app in F as [F _]. clear x.
    revert F. induction Se as [|xs os x Se IH N|xs os x c o Se IH A D]; intros F; [reflexivity| |].
    - rewrite run_all_snoc. pose proof (mem_obeys ps x Se F) as O. apply Forall_app in F as [F _]. rewrite IH by assumption. now apply obeys_none.
    - rewrite run_all_snoc. pose proof (mem_obeys ps x Se F) as O. apply Forall_app in F as [F _]. rewrite IH by assumption.
      rewrite mem_run_snoc. eapply obeys_some; eauto.
  Qed.

  (** The same over RocksDB. *)
  Variable H : list byte -> N.
  Lemma rdb_obeys ps xs os x : session xs os -> Forall value_ok (xs ++ [x]) ->
    obeys (rdb_step H enc dec) ps (rdb_run H enc dec os) x.
  Proof.
    intros Se F. apply Forall_app in F as [F1 F2]. apply Forall_inv in F2. pose proof (session_ops Se F1) as SO.
    apply obeys_step; [apply rdb_kinded|apply rdb_shaped|assumption|]. intros c o A D.
    destruct (asks_tidy _ A D) as (_ & T2 & T3 & T4).
    assert (Forall (sendable_answer alnum enc dec) (fst (local_trace (rdb_step H enc dec) (rdb_run H enc dec os) [(i_env x, o)]))) as X.
    { apply rdb_answers.
      - unfold rtidy_history, good_history, steady. conj.
        + apply Forall_app. split; [eapply Forall_impl; [|exact SO]; cbn; tauto|]. constructor; [|constructor]. apply T4, F2. assumption.
        + apply Forall_app. split; [eapply Forall_impl; [|exact SO]; cbn; intros y (_ & _ & Y & _) n En; now apply Y in En|].
          constructor; [|constructor]. cbn [snd]. intros n En. now apply T3 in En.
        + intros h1 y h2 E. assert (In y (os ++ [(i_env x, o)])) as Hy by (rewrite E; apply in_elt).
          apply in_app_or in Hy as [Hy|[<-|[]]]; [|apply T2]. rewrite Forall_forall in SO. now apply SO.
      - apply Forall_app. split; [eapply Forall_impl; [|exact SO]; cbn; tauto|]. constructor; [|constructor].
        eapply sendable_op; [exact D|]. eapply asks_sendable; eauto. }
    cbn [local_trace] in X. destruct (rdb_step H enc dec (rdb_run H enc dec os) (i_env x, o)) as [r st']. now apply Forall_inv in X.
  Qed.
  Theorem C46_rocksdb_session_partial ps xs os x : session xs os -> Forall value_ok (xs ++ [x]) ->
    run_all (rdb_step H enc dec) ps rdb_empty xs = rdb_run H enc dec os /\
    obeys (rdb_step H enc dec) ps (rdb_run H enc dec os) x.
  Proof.
    intros Se F. split; [|now apply rdb_obeys with (xs := xs)]. apply Forall_app in F as [F _]. clear x.
    revert F. induction Se as [|xs os x Se IH N|xs os x c o Se IH A D]; intros F; [reflexivity| |].
    - rewrite run_all_snoc. pose proof (rdb_obeys ps x Se F) as O. apply Forall_app in F as [F _]. rewrite IH by assumption. now apply obeys_none.
    - rewrite run_all_snoc. pose proof (rdb_obeys ps x Se F) as O. apply Forall_app in F as [F _]. rewrite IH by assumption.
      rewrite rdb_run_snoc. exact (obeys_some A D O).
  Qed.
  (** Every list of command lines stands for a list of calls. *)
  Theorem C46_session_total {Env} (xs : list (invocation Env)) : exists os, session xs os.
  Proof.
    induction xs as [|x xs (os & IH)] using rev_ind; [exists []; constructor|].
    destruct (@run_cases alnum enc dec unit Env (fun s _ => (Panic, s)) [] tt (i_env x) (i_fresh x) (i_drawn x) (i_cmd x)) as [(e & _ & N)|(c & A & _)].
    - exists os. constructor; [assumption|]. intros c A. destruct (N _ A).
    - destruct (db_call (i_fresh x) c) as [o|] eqn:D; [eexists; eapply s_call; eauto|].
      exists os. constructor; [assumption|]. intros c' A'. assert (c' = c) as -> by (eapply C46_unambiguous; eauto). assumption.
  Qed.
End Sessions.

(** With the real text form, the only condition is on floating point numbers:
    values without them always qualify. *)
Theorem C46_values_ok alnum fmt fread Env (x : invocation Env) :
  (forall s v, of_text fread s = Some v -> floats_ok fmt fread v) ->
  value_ok alnum (to_text fmt) (of_text fread) x.
Proof.
  intros Fl c A. inversion A; subst; cbn; repeat constructor; eapply C42_reread; eauto.
Qed.

(** ** Concrete cases *)
Local Open Scope string_scope.
Definition str (s : String.string) : bytes := String.list_byte_of_string s.
Definition u_text : bytes := str "{00112233-4455-6677-8899-AABBccddeeff}".
Definition u_cli : uuid := exist _ [x00; x11; x22; x33; x44; x55; x66; x77; x88; x99; xaa; xbb; xcc; xdd; xee; xff] eq_refl.
Example C46_uuid_case :
  uuid_text u_cli u_text /\ hyphenated_text u_cli = str "00112233-4455-6677-8899-aabbccddeeff" /\
  parse_uuid (str "urn:uuid:00112233-4455-6677-8899-AABBccddeeff") = Some u_cli /\
  parse_uuid (str "00112233445566778899AABBccddeeff") = Some u_cli /\
  parse_uuid (str "00112233-4455-6677-8899-AABBccddeef") = None /\
  parse_uuid (str "00112233-4455-6677-8899AABB-ccddeeff") = None /\
  parse_uuid (str "{00112233445566778899AABBccddeeff}") = None.
Proof. conj; try (vm_compute; reflexivity). apply C46_uuid_text. vm_compute. reflexivity. Qed.

(** A session with two good commands and two bad ones in between. *)
Definition cli_session : list (invocation order) :=
  [Invoke id_order u1 u2 (KSetVertex (str "person") (Some u_text));
   Invoke id_order u1 u2 (KSetVertex (str "per son") None);
   Invoke id_order u1 u2 (KSetVertexProperty (str "00112233") (str "name") (str "3"));
   Invoke id_order u1 u2 (KSetVertex (str "person") None)].
Definition cli_out (x : invocation order) (fmt : N -> bytes) (fread : bytes -> option N) : exit :=
  fst (run alnum0 (to_text fmt) (of_text fread) (mem_step true) []
         (run_all alnum0 (to_text fmt) (of_text fread) (mem_step true) [] (Some mem_empty) cli_session)
         (i_env x) (i_fresh x) (i_drawn x) (i_cmd x)).
Example C46_case fmt fread :
  Forall (value_ok alnum0 (to_text fmt) (of_text fread)) cli_session /\
  cli_out (Invoke id_order u1 u1 KCountVertex) fmt fread = Printed (PCount 2) /\
  cli_out (Invoke id_order u1 u1 (KSetVertex (str "person") (Some u_text))) fmt fread = Failed ETaken /\
  cli_out (Invoke id_order u1 u1 (KSetEdge u_text (str "likes") u_text)) fmt fread = Printed (PEdge (Edge u_cli (exist _ (str "likes") eq_refl) u_cli)) /\
  cli_out (Invoke id_order u1 u1 (KSetEdge u_text (str "likes") (hyphenated_text u3))) fmt fread = Failed EVertexInvalid /\
  cli_out (Invoke id_order u1 u1 (KGetVertex u_text)) fmt fread = Printed (PVertices (Some [Vertex u_cli (exist _ (str "person") eq_refl)])) /\
  cli_out (Invoke id_order u1 u1 (KSetVertexProperty u_text (str "name") (str "{"))) fmt fread = Failed EJson.
Proof.
  conj; [|vm_compute; reflexivity..].
  assert (forall e f d t i, value_ok alnum0 (to_text fmt) (of_text fread) (Invoke e f d (KSetVertex t i) : invocation order)) as V.
  { intros e f d t i c A. cbn [i_cmd i_drawn] in A. inversion A; subst; constructor. }
  assert (forall e f d u n v, parse_uuid u = None -> value_ok alnum0 (to_text fmt) (of_text fread) (Invoke e f d (KSetVertexProperty u n v) : invocation order)) as W.
  { intros e f d u n v E c A. cbn [i_cmd i_drawn] in A. inversion A as [| | | |? ? ? ? ? ? T| | | | | | | | | | |]; subst.
    apply C46_uuid_text in T. congruence. }
  unfold cli_session. repeat (apply Forall_cons; [first [apply V|apply W; reflexivity]|]). apply Forall_nil.
Qed.
