(** * C29: both backends answer alike.

    The claim is false in general (edge order, edges into deleted vertices,
    bulk insertion, value lookups).  It holds for every sequence of calls that
    is [comparable]: a condition on the calls and on the abstract graph they
    build, not on either backend. *)
From Verif Require Import Base OMap Json Types Util Db Mem Rdb Spec QueryFacts SpecFacts QueryTrust JsonFacts UtilFacts
  MemFacts MemRefine MemHist KeyFacts RdbSpec RdbRep RdbWrite RdbPut RdbRefine RdbGraph RdbHist RdbCrash Stages Effects
  Claims PropsMem Examples PropsMemIndex PropsRdb PropsRdbIndex Agree.

Set Implicit Arguments.

Section Alike.
  Variable H : list byte -> N.
  Variable enc : json -> bytes.
  Variable dec : bytes -> option json.

  (** The results of a list of calls on a RocksDB database. *)
  Fixpoint rdb_trace (s : rstate) (h : list (renv * op)) : list (outcome res) * rstate :=
    match h with
    | [] => ([], s)
    | x :: h' => let (r, s') := rdb_step H enc dec s x in
                 let (rs, s'') := rdb_trace s' h' in (r :: rs, s'')
    end.

  (** When a call is answered alike on the graph [g]. *)
  Record comparable (g : graph) (o : op) : Prop := {
    (* its query does not start with an index lookup, whose order is arbitrary *)
    cmp_ordered : forall q, op_query o = Some q -> ordered q;
    (* the hash tells the values it looks for from the stored ones exactly when equality does *)
    cmp_values : forall q n x y, op_query o = Some q -> In (n, x) (value_tests q) -> stored g n y ->
      (key_eq y x = true <-> json_hash H y = json_hash H x);
    (* comparing edge types by length first makes no difference *)
    cmp_types : forall e f, is_edge g e -> is_edge g f -> (lt (et e) (et f) <-> slt (et e) (et f));
    (* no vertex has the largest id *)
    cmp_max : forall v, is_vertex g v -> ~ is_max (vid v);
    (* properties are written to existing elements only *)
    cmp_tidy : tidy_op g o;
    (* bulk items and vertex deletions that RocksDB handles like single calls *)
    cmp_effect : forall r a, resolves lt vm g o r a -> agrees g a;
    cmp_bulk : forall items, o = OBulkInsert items -> consistent items }.

  Fixpoint comparable_run (g : graph) (os : list op) : Prop :=
    match os with
    | [] => True
    | o :: os' => comparable g o /\ forall r g', spec_step lt vm g o r g' -> comparable_run g' os'
    end.

  Lemma rtidy_of g o : (forall items, o = OBulkInsert items -> agrees_items g items /\ consistent items) ->
    tidy_op g o -> rtidy_op g o.
  Proof.
    destruct o; cbn; auto. intros HB HT. destruct (HB _ eq_refl) as [A C]. split; [|assumption]. clear C HB.
    revert g A HT. induction items as [|it items IH]; intros g A T; cbn in *; [auto|].
    destruct A as [A As], T as [T Ts].
    assert (r_bulk_item g it = g_bulk_item g it) as E.
    { pose proof (@r_bulk_agrees [it] g) as B. cbn in B. apply B. auto. }
    rewrite E. split; [|now apply IH]. destruct it; cbn in *; auto.
  Qed.

  Lemma bad_vertex g q : hits_bad g lt vm is_max q -> exists v, is_vertex g v /\ is_max (vid v).
  Proof.
    induction 1 as [i ex vs E X|]; [|assumption]. apply evals_exists in E. cbn in E.
    apply Exists_exists in X as (v & Hv & M). rewrite Forall_forall in E. eauto.
  Qed.

  (** One call on two databases holding the same graph. *)
  Lemma step_alike dbg hm1 hr1 m o ord env :
    (dbg = true \/ forall q, op_query o = Some q -> index_names q = []) ->
    (dbg = true -> tidy_history true hm1) -> mem_run dbg hm1 = Some m ->
    rtidy_history H enc dec hr1 -> gof m = rgof dec (rdb_run H enc dec hr1) ->
    wok env = true -> good_op enc dec o -> comparable (gof m) o ->
    exists m' s' r, mem_step dbg (Some m) (ord, o) = (r, Some m') /\
      rdb_step H enc dec (rdb_run H enc dec hr1) (env, o) = (r, s') /\ r <> Panic /\
      gof m' = rgof dec s' /\ spec_step lt vm (gof m) o r (gof m') /\ rtidy_op (rgof dec (rdb_run H enc dec hr1)) o.
  Proof.
    intros DX TM Hm TR G W GO C.
    destruct (run_weak dbg hm1 Hm) as (K & M & EP & SO).
    destruct (run_rtidy TR) as (L & R & X & NO & _).
    set (s := rdb_run H enc dec hr1) in *.
    destruct (mem_step dbg (Some m) (ord, o)) as [r st'] eqn:EM.
    destruct (rdb_step H enc dec s (env, o)) as [r' s'] eqn:ER.
    assert (exists m', st' = Some m' /\ spec_step lt vm (gof m) o r (gof m')) as (m' & -> & SP).
    { assert (dbg = true \/ dbg = false) as [->| ->] by (destruct dbg; auto).
      - destruct (tidy_step ord o (TM eq_refl) Hm EM) as [D|(_ & _ & q & _ & B)]; [exact D|].
        apply bad_vertex in B as (v & Iv & Mx). now elim (cmp_max C Iv).
      - destruct DX as [|DX]; [discriminate|].
        unfold mem_step in EM. cbn [fst snd] in EM. destruct (exec (mem_ops false ord) m o) as [r1 m1] eqn:XX.
        destruct (@mem_exec_spec false ord m o r1 m1 M) with (2 := XX) as [SS|[(_ & D & _)|(-> & q & _ & B)]].
        + intros q n Hq Hin. rewrite (DX q Hq) in Hin. destruct Hin.
        + destruct r1; inversion EM; subst; eauto. inversion SS.
        + discriminate.
        + apply bad_vertex in B as (v & Iv & Mx). now elim (cmp_max C Iv). }
    pose proof SP as SP0. apply spec_step_resolves in SP as (a & RS & Ga).
    destruct (@rdb_tidy_step H enc dec hr1 env o r' s' TR GO ER) as [(a' & RS' & Ga')|(W' & _)]; [|congruence].
    fold s in RS', Ga'. rewrite <- G in RS', Ga'.
    assert (resolves lt vm (gof m) o r' a') as RS2.
    { eapply resolves_transfer; [| |exact RS'].
      - intros e f He Hf. apply (cmp_types C He Hf).
      - intros q Hq n x Hin y Hy. unfold hm, vm. rewrite hash8_iff. symmetry. eapply (cmp_values C); eauto. }
    destruct (resolves_det lex_order (cmp_ordered C) RS RS2) as [<- <-].
    exists m', s', r. conj; auto.
    - destruct RS; discriminate.
    - rewrite Ga, Ga'. symmetry. apply r_apply_agrees.
      + rewrite G. unfold s. now rewrite (rgof_rep (rdb_run H enc dec hr1) R).
      + intros e He. apply mem_get. apply EP in He as [He _]. now apply mem_get.
      + eapply cmp_effect; eauto.
    - rewrite <- G. apply rtidy_of; [|apply (cmp_tidy C)]. intros items ->.
      split; [|now apply (cmp_bulk C)]. assert (a = ABulk items) as -> by (inversion RS; reflexivity).
      apply (cmp_effect C RS).
  Qed.

  Theorem alike_from dbg os : forall hm1 hr1 m mc rc,
    (dbg = true \/ forall o q, In o os -> op_query o = Some q -> index_names q = []) ->
    (dbg = true -> tidy_history true hm1) -> mem_run dbg hm1 = Some m ->
    rtidy_history H enc dec hr1 -> gof m = rgof dec (rdb_run H enc dec hr1) ->
    map snd mc = os -> map snd rc = os -> Forall (fun x => wok (fst x) = true) rc ->
    Forall (good_op enc dec) os -> comparable_run (gof m) os ->
    fst (mem_trace dbg (Some m) mc) = fst (rdb_trace (rdb_run H enc dec hr1) rc) /\
    ~ In Panic (fst (mem_trace dbg (Some m) mc)) /\
    exists m', snd (mem_trace dbg (Some m) mc) = Some m' /\
      gof m' = rgof dec (snd (rdb_trace (rdb_run H enc dec hr1) rc)).
  Proof.
    induction os as [|o os IH]; intros hm1 hr1 m mc rc DX TM Hm TR G Em Er W GO C.
    - destruct mc; [|discriminate]. destruct rc; [|discriminate]. cbn. conj; eauto.
    - destruct mc as [|[ord om] mc]; [discriminate|]. destruct rc as [|[env orr] rc]; [discriminate|].
      cbn in Em, Er. inversion Em; subst. inversion Er; subst.
      apply Forall_cons_iff in W as [W0 W]. apply Forall_cons_iff in GO as [GO0 GO]. cbn [fst] in W0.
      destruct C as [C Cn].
      destruct (@step_alike dbg hm1 hr1 m o ord env) as (m' & s' & r & EM & ER & NP & G' & SP & RT); auto.
      { destruct DX as [->|DX]; [auto|]. right. intros q. apply DX. now left. }
      cbn [mem_trace rdb_trace]. rewrite EM, ER.
      assert (mem_run dbg (hm1 ++ [(ord, o)]) = Some m') as Hm'.
      { rewrite mem_run_snoc, Hm, EM. reflexivity. }
      assert (rdb_run H enc dec (hr1 ++ [(env, o)]) = s') as Hs.
      { rewrite rdb_run_snoc. unfold rdb_step in ER. cbn [fst snd] in *. now rewrite ER. }
      destruct (IH (hm1 ++ [(ord, o)]) (hr1 ++ [(env, o)]) m' mc rc) as (E1 & E2 & m2 & E3 & E4); auto.
      + destruct DX as [->|DX]; [auto|]. right. intros o' q Ho. apply DX. now right.
      + intros ->. specialize (TM eq_refl). intros h1 x h2 m0 E Hr.
        destruct h2 as [|y h2] using rev_ind.
        * apply app_inj_tail in E as [<- <-]. rewrite Hm in Hr. inversion Hr; subst. apply (cmp_tidy C).
        * clear IHh2. rewrite app_comm_cons, app_assoc in E. apply app_inj_tail in E as [-> _]. eapply TM; eauto.
      + destruct TR as (T1 & T2 & T3). unfold rtidy_history, good_history, steady in *. conj.
        * apply Forall_app. auto.
        * apply Forall_app. split; [assumption|]. constructor; [|constructor]. intros; exact W0.
        * intros h1 x h2 E. destruct h2 as [|y h2] using rev_ind.
          -- apply app_inj_tail in E as [<- <-]. exact RT.
          -- clear IHh2. rewrite app_comm_cons, app_assoc in E. apply app_inj_tail in E as [-> _]. eapply T3; eauto.
      + now rewrite Hs.
      + eauto.
      + rewrite Hs in *. destruct (mem_trace dbg (Some m') mc) as [rs1 st1]. destruct (rdb_trace s' rc) as [rs2 st2].
        cbn [fst snd] in *. subst. conj; auto.
        * intros [E|E]; [now elim NP|auto].
        * eauto.
  Qed.

  (** Every comparable list of calls gives the same list of results on a fresh
      memory database and on a fresh RocksDB database whose writes succeed,
      without panics, and leaves both holding the same graph.  (In a release
      build, for calls that consult no index.) *)
  Theorem C29_backends_agree_partial dbg mc rc :
    map snd mc = map snd rc ->
    (dbg = true \/ forall o q, In o (map snd mc) -> op_query o = Some q -> index_names q = []) ->
    Forall (fun x => wok (fst x) = true) rc ->
    good_history enc dec rc ->
    comparable_run g_empty (map snd mc) ->
    fst (mem_trace dbg (Some mem_empty) mc) = fst (rdb_trace rdb_empty rc) /\
    ~ In Panic (fst (mem_trace dbg (Some mem_empty) mc)) /\
    exists m, snd (mem_trace dbg (Some mem_empty) mc) = Some m /\ gof m = rgof dec (snd (rdb_trace rdb_empty rc)).
  Proof.
    intros E DX W GO C. apply (@alike_from dbg (map snd mc) [] [] mem_empty mc rc); auto.
    - intros _ h1 x h2 m0 E0. destruct h1; discriminate.
    - unfold rtidy_history, good_history, steady. conj; [constructor|constructor|]. intros h1 x h2 E0. destruct h1; discriminate.
    - rewrite gof_empty. unfold rgof, g_empty. cbn. reflexivity.
    - apply Forall_forall. intros o Ho. rewrite E in Ho. apply in_map_iff in Ho as (x & <- & Hx).
      unfold good_history in GO. rewrite Forall_forall in GO. auto.
    - rewrite gof_empty. exact C.
  Qed.
End Alike.

(** ** A syntactic condition

    Calls that never meet the differences between the backends, whatever the
    state: all edge types have the same length [k], no vertex gets the largest
    id, queries neither start at an index nor compare values, and only edges,
    properties or all vertices at once are deleted. *)
Fixpoint makes_vertices (q : query) : bool :=
  match q with
  | QAllVertex | QRangeVertex _ _ _ | QSpecificVertex _ | QVertexWithPropertyPresence _ | QVertexWithPropertyValue _ _ => true
  | QAllEdge | QSpecificEdge _ | QEdgeWithPropertyPresence _ | QEdgeWithPropertyValue _ _ => false
  | QPipe i _ _ _ => negb (makes_vertices i)
  | QPipeWithPropertyPresence i _ _ | QPipeWithPropertyValue i _ _ _ | QInclude i => makes_vertices i
  | QPipeProperty _ _ | QCount _ => false
  end.

Lemma evals_kind tlt vmatch g q ex v : evals tlt vmatch g q ex v ->
  match v with Vertices _ => makes_vertices q = true | Edges _ => makes_vertices q = false | _ => True end.
Proof. induction 1; cbn [makes_vertices]; auto; try (now rewrite IHevals). Qed.

Definition simple_query (q : query) : bool :=
  match index_of (leaf q) with None => true | Some _ => false end &&
  match value_tests q with [] => true | _ => false end.

Definition simple_op (k : nat) (o : op) : bool :=
  match o with
  | OCreateVertex v => negb (eqb (vid v) umax)
  | OCreateVertexFromType id _ => negb (eqb id umax)
  | OCreateEdge e => Nat.eqb (length (ib (et e))) k
  | OGet q | OSetProperties q _ _ => simple_query q
  | ODelete QAllVertex => true
  | ODelete q => simple_query q && negb (makes_vertices q)
  | OIndexProperty _ | OSync => true
  | _ => false
  end.

Definition uniform (k : nat) (g : graph) : Prop :=
  (forall v, is_vertex g v -> vid v <> umax) /\ (forall e, is_edge g e -> length (ib (et e)) = k) /\ endpoints_exist g.

Lemma is_max_umax u : is_max u -> u = umax.
Proof.
  intros M. destruct (cmp_case u umax) as [L|[E|L]].
  - now elim (M umax).
  - assumption.
  - assert (is_max umax) as X by (apply next_uuid_max; reflexivity). now elim (X u).
Qed.

Lemma simple_ordered q : simple_query q = true -> ordered q /\ value_tests q = [].
Proof.
  unfold simple_query, ordered. intros E. apply andb_true_iff in E as [E1 E2].
  split; [destruct (index_of (leaf q)); congruence|destruct (value_tests q); congruence].
Qed.

Lemma simple_delete k q : simple_op k (ODelete q) = true ->
  ordered q /\ value_tests q = [] /\ (q = QAllVertex \/ makes_vertices q = false).
Proof.
  intros E. assert (q = QAllVertex \/ simple_query q && negb (makes_vertices q) = true) as [->|E2].
  { destruct q; cbn [simple_op] in E; auto. }
  - unfold ordered. cbn. auto.
  - apply andb_true_iff in E2 as [E1 E2]. apply simple_ordered in E1 as [O V]. rewrite negb_true_iff in E2. auto.
Qed.

Lemma simple_queries k o q : simple_op k o = true -> op_query o = Some q -> ordered q /\ value_tests q = [].
Proof.
  intros S Q. destruct o; cbn in Q; inversion Q; subst; try (now apply simple_ordered).
  now destruct (simple_delete _ _ S) as (A & B & _).
Qed.

Lemma uniform_apply k g o r a : uniform k g -> simple_op k o = true -> resolves lt vm g o r a ->
  uniform k (g_apply g a) /\ agrees g a.
Proof.
  intros (UV & UE & EP) S R.
  assert (endpoints_exist (g_apply g a)) as EP'.
  { eapply endpoints_change; [|exact EP]. eapply spec_step_change. apply spec_step_resolves. eauto. }
  cut (((forall v, is_vertex (g_apply g a) v -> vid v <> umax) /\ (forall e, is_edge (g_apply g a) e -> length (ib (et e)) = k)) /\ agrees g a).
  { unfold uniform. tauto. }
  clear EP'.
  assert (forall v, vid v <> umax -> forall w, is_vertex (g_create_vertex g v) w -> vid w <> umax) as CV.
  { intros v N w. unfold g_create_vertex. destruct (mem (vid v) (gv g)); [apply UV|].
    intros Hw. unfold is_vertex in Hw. cbn in Hw. rewrite get_set in Hw. destruct (eqb (vid w) (vid v)) eqn:E.
    - apply eqb_eq in E. congruence.
    - exact (UV w Hw). }
  assert (forall v e, is_edge (g_create_vertex g v) e -> is_edge g e) as CE.
  { intros v e. unfold g_create_vertex. now destruct (mem (vid v) (gv g)). }
  assert (forall u v : uuid, negb (eqb u v) = true -> u <> v) as NE.
  { intros u v E ->. rewrite eqb_refl in E. discriminate. }
  destruct R; cbn [g_apply agrees]; try (split; [split; assumption|exact I]); try discriminate.
  - split; [|exact I]. split; [apply CV; now apply NE|eauto].
  - split; [|exact I]. split; [apply CV; now apply NE|eauto].
  - split; [|exact I]. unfold g_create_edge. destruct (mem (eout e) (gv g) && mem (ein e) (gv g)); [|split; assumption]. split; [exact UV|].
    intros f Hf. unfold is_edge in Hf. cbn in Hf. rewrite mem_add in Hf. apply orb_true_iff in Hf as [Hf|Hf].
    + apply eqb_eq in Hf. subst. cbn in S. now apply Nat.eqb_eq.
    + now apply UE.
  - split.
    + split.
      * intros v Hv. apply UV. unfold is_vertex in *. cbn in Hv.
        rewrite (get_filt_key (fun i => negb (inb i (map vid vs)))) in Hv. now destruct (negb _) in Hv.
      * intros e He. apply UE. unfold is_edge in *. cbn in He.
        rewrite (mem_filt (fun i => negb (incident (map vid vs) i))) in He. now apply andb_true_iff in He as [_ He].
    + destruct (simple_delete _ _ S) as (_ & _ & [->|M]).
      * inversion H as [l L0| | | | | | | | | | | | | | | | | |]; subst. destruct L0 as [_ L]. intros e He _. apply EP in He as [He _].
        apply mem_get in He as (t & Ht). apply in_map_iff. exists (Vertex (eout e) t). split; [reflexivity|]. apply L. exact Ht.
      * apply evals_kind in H. cbn in H. congruence.
  - split; [|exact I]. split; [exact UV|]. intros e He. apply UE. unfold is_edge in *. cbn in He.
    rewrite (mem_filt (fun i => negb (inb i es))) in He. now apply andb_true_iff in He as [_ He].
Qed.

Lemma simple_comparable H k os : forall g, uniform k g -> forallb (simple_op k) os = true -> comparable_run H g os.
Proof.
  induction os as [|o os IH]; intros g U S; [exact I|]. cbn in S. apply andb_true_iff in S as [S Ss]. split.
  - destruct U as (UV & UE & EP). split.
    + intros q Q. now apply (simple_queries _ _ S Q).
    + intros q n x y Q Hin. destruct (simple_queries _ _ S Q) as [_ E]. rewrite E in Hin. destruct Hin.
    + intros e f He Hf. unfold slt. apply UE in He, Hf. rewrite He, Hf. split; [right; auto|]. intros [L|[_ L]]; [lia|assumption].
    + intros v Hv M. apply is_max_umax in M. now elim (UV v Hv).
    + destruct o; try discriminate; exact I.
    + intros r a R. eapply uniform_apply; eauto. split; auto.
    + intros items ->. discriminate.
  - intros r g' SP. apply IH; [|exact Ss]. apply spec_step_resolves in SP as (a & R & ->).
    eapply uniform_apply; eauto.
Qed.

(** Such calls, in any number, get the same answers from both backends. *)
Theorem C29_backends_agree_simple_partial H enc dec k mc rc :
  map snd mc = map snd rc ->
  Forall (fun x => wok (fst x) = true) rc -> good_history enc dec rc ->
  forallb (simple_op k) (map snd mc) = true ->
  fst (mem_trace true (Some mem_empty) mc) = fst (rdb_trace H enc dec rdb_empty rc) /\
  ~ In Panic (fst (mem_trace true (Some mem_empty) mc)).
Proof.
  intros E W G S. destruct (@C29_backends_agree_partial H enc dec true mc rc) as (A & B & _); auto.
  eapply simple_comparable; eauto. unfold uniform. conj.
  - intros v Hv. unfold is_vertex in Hv. cbn in Hv. rewrite get_empty in Hv. discriminate.
  - intros e He. unfold is_edge in He. cbn in He. discriminate.
  - intros e He. unfold is_edge in He. cbn in He. discriminate.
Qed.

(** The same calls with the answers spelled out: a concrete case. *)
Definition h_alike : list op :=
  [OCreateVertex v1; OCreateVertex v2; OCreateEdge e12; OCreateEdge e23; OIndexProperty n_name;
   OSetProperties (q_vertex u1) n_name j_bob; OGet (QPipe QAllVertex Outbound 10 None);
   OGet (QPipeWithPropertyPresence QAllVertex n_name true); OGet (QPipeProperty QAllVertex None);
   ODelete (q_edge e12); OGet (QCount QAllEdge); ODelete QAllVertex; OGet (QCount (QCount QAllVertex))].

Example C29_case :
  forallb (simple_op 5) h_alike = true /\ good_history enc0 dec0 (ok_calls h_alike) /\
  fst (mem_trace true (Some mem_empty) (calls h_alike)) = fst (rdb_trace hash0 enc0 dec0 rdb_empty (ok_calls h_alike)) /\
  nth_error (fst (rdb_trace hash0 enc0 dec0 rdb_empty (ok_calls h_alike))) 6 = Some (Ok (ROut [Edges [e12]])).
Proof.
  split; [reflexivity|]. split; [good0|]. split.
  - apply (@C29_backends_agree_simple_partial hash0 enc0 dec0 5).
    + reflexivity.
    + repeat constructor.
    + good0.
    + reflexivity.
  - vm_compute. reflexivity.
Qed.

(** ** Index lookups

    An index lookup returns the same elements, without repetition, in some
    order. *)
Lemma lookup_perm g tlt tlt' vmatch vmatch' q n ex v ex' v' :
  index_of q = Some n -> inner_of q = None ->
  (forall n x, In (n, x) (value_tests q) -> forall y, stored g n y -> (vmatch y x <-> vmatch' y x)) ->
  evals tlt vmatch g q ex v -> evals tlt' vmatch' g q ex' v' ->
  ex = [] /\ ex' = [] /\
  match v, v' with
  | Vertices l, Vertices l' => Permutation l l'
  | Edges l, Edges l' => Permutation l l'
  | _, _ => False
  end.
Proof.
  intros I In0 A E E'.
  destruct q; try discriminate; inversion E; subst; inversion E'; subst; (split; [reflexivity|]); (split; [reflexivity|]);
    (apply NoDup_Permutation; [assumption|assumption|]); intros x0;
    repeat match goal with HI : forall w, In w _ <-> _ |- _ => rewrite HI; clear HI end; try reflexivity.
  - rewrite (@has_value_v g vmatch vmatch' x0 name value); [reflexivity|]. apply A. now left.
  - rewrite (@has_value_e g vmatch vmatch' x0 name value); [reflexivity|]. apply A. now left.
Qed.

Definition same_up_to_order (r r' : outcome (list outv)) : Prop :=
  match r, r' with
  | Ok [Vertices l], Ok [Vertices l'] => Permutation l l'
  | Ok [Edges l], Ok [Edges l'] => Permutation l l'
  | Err e, Err e' => e = e'
  | _, _ => False
  end.

(** A database of each kind holding the same graph, the memory one a debug
    build: an index lookup gives the same elements, without repetition. *)
Theorem C29_lookups_agree_partial H enc dec mc rc m ord env q n :
  tidy_history true mc -> mem_run true mc = Some m ->
  rtidy_history H enc dec rc -> gof m = rgof dec (rdb_run H enc dec rc) -> wok env = true ->
  index_of q = Some n -> inner_of q = None ->
  (forall n x y, In (n, x) (value_tests q) -> stored (gof m) n y -> (key_eq y x = true <-> json_hash H y = json_hash H x)) ->
  same_up_to_order (db_get (mem_ops true ord) m q) (db_get (rdb_ops H enc dec env) (rdb_run H enc dec rc) q).
Proof.
  intros TM Hm TR G W I In0 V.
  set (s := rdb_run H enc dec rc) in *.
  destruct (mem_step true (Some m) (ord, OGet q)) as [r st'] eqn:EM.
  destruct (rdb_step H enc dec s (env, OGet q)) as [r' s'] eqn:ER.
  pose proof (tidy_step ord (OGet q) TM Hm EM) as D.
  pose proof (@rdb_tidy_step H enc dec rc env (OGet q) r' s' TR Logic.I ER) as D'.
  destruct D' as [(a' & RS' & _)|(W' & _)]; [|congruence]. fold s in RS'. rewrite <- G in RS'.
  assert (resolves lt vm (gof m) (OGet q) r (ANone)) as RS.
  { destruct D as [(m' & _ & SP)|(_ & _ & q' & Q & B)].
    - apply spec_step_resolves in SP as (a & R & _). inversion R; subst; assumption.
    - exfalso. cbn in Q. inversion Q; subst. inversion B; subst; [discriminate|congruence]. }
  assert (r = omapo ROut (db_get (mem_ops true ord) m q)) as Er.
  { unfold mem_step in EM. cbn [fst snd exec] in EM. destruct (db_get (mem_ops true ord) m q); cbn in EM; inversion EM; reflexivity. }
  assert (r' = omapo ROut (db_get (rdb_ops H enc dec env) s q)) as Er'.
  { unfold rdb_step in ER. cbn [fst snd exec] in ER. inversion ER; reflexivity. }
  clear EM ER D.
  assert (forall tlt vmatch e, fails tlt vmatch (gof m) q e -> e = NotIndexed /\ ~ indexed (gof m) n) as FN.
  { intros tlt vmatch e F. inversion F; subst; try congruence. split; [reflexivity|]. congruence. }
  assert (forall tlt vmatch ex v, evals tlt vmatch (gof m) q ex v -> indexed (gof m) n) as EI.
  { intros tlt vmatch ex v E. destruct q; try discriminate; cbn in I; inversion I; subst; inversion E; subst; assumption. }
  inversion RS as [| | | |? ? ? E1|? ? F1| | | | | | | | | | | | | | | | | | |]; subst;
    inversion RS' as [| | | |? ? ? E2|? ? F2| | | | | | | | | | | | | | | | | | |]; subst.
  - pose proof (@lookup_perm (gof m) lt slt vm (hm H) q n ex v ex0 v0 I In0) as P. 
    destruct P as (-> & -> & P); auto.
    { intros n0 x Hin y Hy. unfold hm, vm. rewrite hash8_iff. eauto. }
    destruct (db_get (mem_ops true ord) m q) as [o|?|]; try discriminate.
    destruct (db_get (rdb_ops H enc dec env) s q) as [o'|?|]; try discriminate.
    cbn in *. match goal with X : Ok (ROut _) = Ok (ROut o) |- _ => inversion X end.
    match goal with X : Ok (ROut _) = Ok (ROut o') |- _ => inversion X end. cbn. destruct v, v0; auto.
  - exfalso. apply FN in F2 as [_ F2]. apply F2. eapply EI; eauto.
  - exfalso. apply FN in F1 as [_ F1]. apply F1. eapply EI; eauto.
  - apply FN in F1 as [-> _]. apply FN in F2 as [-> _].
    destruct (db_get (mem_ops true ord) m q) as [o|?|]; try discriminate.
    destruct (db_get (rdb_ops H enc dec env) s q) as [o'|?|]; try discriminate. cbn in *. congruence.
Qed.

(** ** Where they differ *)

Definition t_b : ident := exist _ [x62] eq_refl.
Definition t_aa : ident := exist _ [x61; x61] eq_refl.

(** The order of edges: types "b" and "aa". *)
Theorem C29_edge_order_refuted : exists os : list op,
  good_history enc0 dec0 (ok_calls os) /\
  fst (mem_trace true (Some mem_empty) (calls os)) <> fst (rdb_trace hash0 enc0 dec0 rdb_empty (ok_calls os)) /\
  fst (mem_trace false (Some mem_empty) (calls os)) <> fst (rdb_trace hash0 enc0 dec0 rdb_empty (ok_calls os)).
Proof.
  exists [OCreateVertex v1; OCreateVertex v2; OCreateEdge (Edge u1 t_b u2); OCreateEdge (Edge u1 t_aa u2); OGet QAllEdge].
  split; [good0|]. split; vm_compute; discriminate.
Qed.

(** With a limit, not even the set of returned edges is the same. *)
Theorem C29_limit_refuted : exists (os : list op) e f,
  good_history enc0 dec0 (ok_calls os) /\ e <> f /\
  last (fst (mem_trace true (Some mem_empty) (calls os))) Panic = Ok (ROut [Edges [e]]) /\
  last (fst (rdb_trace hash0 enc0 dec0 rdb_empty (ok_calls os))) Panic = Ok (ROut [Edges [f]]).
Proof.
  exists [OCreateVertex v1; OCreateVertex v2; OCreateEdge (Edge u1 t_b u2); OCreateEdge (Edge u1 t_aa u2);
          OGet (QPipe (q_vertex u1) Outbound 1 None)], (Edge u1 t_aa u2), (Edge u1 t_b u2).
  split; [good0|]. split; [discriminate|]. split; vm_compute; reflexivity.
Qed.

(** Edges into a deleted vertex. *)
Theorem C29_delete_refuted : exists (os : list op) e,
  good_history enc0 dec0 (ok_calls os) /\
  last (fst (mem_trace true (Some mem_empty) (calls os))) Panic = Ok (ROut [Edges []]) /\
  last (fst (rdb_trace hash0 enc0 dec0 rdb_empty (ok_calls os))) Panic = Ok (ROut [Edges [e]]).
Proof.
  exists [OCreateVertex v1; OCreateVertex v2; OCreateEdge e12; ODelete (q_vertex u2); OGet QAllEdge], e12.
  split; [good0|]. split; vm_compute; reflexivity.
Qed.

(** Bulk insertion over an existing vertex. *)
Theorem C29_bulk_refuted : exists (os : list op) v w,
  good_history enc0 dec0 (ok_calls os) /\ v <> w /\
  last (fst (mem_trace true (Some mem_empty) (calls os))) Panic = Ok (ROut [Vertices [v]]) /\
  last (fst (rdb_trace hash0 enc0 dec0 rdb_empty (ok_calls os))) Panic = Ok (ROut [Vertices [w]]).
Proof.
  exists [OCreateVertex v1; OBulkInsert [BVertex (Vertex u1 t_likes)]; OGet QAllVertex], v1, (Vertex u1 t_likes).
  split; [good0|]. split; [discriminate|]. split; vm_compute; reflexivity.
Qed.

(** All properties of the vertex with the largest id: a panic in memory. *)
Theorem C29_panic_refuted : exists (os : list op),
  good_history enc0 dec0 (ok_calls os) /\
  last (fst (mem_trace false (Some mem_empty) (calls os))) (Ok RUnit) = Panic /\
  last (fst (rdb_trace hash0 enc0 dec0 rdb_empty (ok_calls os))) Panic =
    Ok (ROut [VertexProperties [VProps vmax [NProp n_name j_true]]]).
Proof.
  exists [OCreateVertex vmax; OSetProperties (q_vertex umax) n_name j_true; OGet (QPipeProperty QAllVertex None)].
  split; [good0|]. split; vm_compute; reflexivity.
Qed.
