(** * [query] agrees with the declarative semantics.

    Generic over the backend: if the primitive reads of a transaction agree
    with a graph ([reads_ok]), then [query_exec] computes what [evals]/[fails]
    say. *)
From Verif Require Import Base OMap Json Types Util Db Spec.

Set Implicit Arguments.

(** ** List lemmas *)

Lemma filter_map_Ok {A} (p : outcome A -> bool) (l : list A) :
  filter p (map Ok l) = map Ok (filter (fun x => p (Ok x)) l).
Proof. induction l as [|a l IH]; cbn; [reflexivity|]. destruct (p (Ok a)); cbn; now rewrite IH. Qed.

Lemma take_while_map {A B} (f : A -> B) (p : B -> bool) (l : list A) :
  take_while p (map f l) = map f (take_while (fun x => p (f x)) l).
Proof. induction l as [|a l IH]; cbn; [reflexivity|]. destruct (p (f a)); cbn; now rewrite ?IH. Qed.

(** [take_while] is [filter] when the predicate is downward closed along a
    sorted list. *)
Lemma take_while_is_filter {A} (R : A -> A -> Prop) (p : A -> bool) l :
  StronglySorted R l ->
  (forall x y, In x l -> In y l -> R x y -> p y = true -> p x = true) ->
  take_while p l = filter p l.
Proof.
  induction 1 as [|a l Hs IH Hf]; cbn; intros Hp; [reflexivity|].
  rewrite Forall_forall in Hf.
  destruct (p a) eqn:E.
  - f_equal. apply IH. eauto.
  - symmetry. apply not_true_is_false in E || idtac.
    destruct (filter p l) as [|b r] eqn:F; [reflexivity|exfalso].
    assert (In b (filter p l)) as Hb by (rewrite F; now left).
    apply filter_In in Hb as [Hb Hpb].
    rewrite (Hp a b) in E; auto; discriminate.
Qed.

Lemma listing_filter {A} (R : A -> A -> Prop) (P Q : A -> Prop) (p : A -> bool) l :
  listing R P l -> (forall x, P x /\ p x = true <-> Q x) -> listing R Q (filter p l).
Proof.
  intros [Hs Hi] H. split; [now apply sorted_filter|].
  intros x. rewrite filter_In, Hi. apply H.
Qed.

Lemma sorted_map {A B} (f : A -> B) (R : A -> A -> Prop) (Q : B -> B -> Prop) l :
  (forall x y, R x y -> Q (f x) (f y)) -> StronglySorted R l -> StronglySorted Q (map f l).
Proof.
  intros H. induction 1 as [|a l Hs IH Hf]; cbn; constructor; auto.
  rewrite Forall_forall in *. intros y Hy. apply in_map_iff in Hy as (x & <- & Hx). auto.
Qed.

Lemma listing_map {A B} (f : A -> B) (R : A -> A -> Prop) (Q : B -> B -> Prop) (P : A -> Prop) (P' : B -> Prop) l :
  listing R P l ->
  (forall x y, R x y -> Q (f x) (f y)) ->
  (forall y, P' y <-> exists x, f x = y /\ P x) ->
  listing Q P' (map f l).
Proof.
  intros [Hs Hi] HR HP. split; [eapply sorted_map; eauto|].
  intros y. rewrite in_map_iff, HP. split; intros (x & Hx & Hp); exists x; split; auto; now apply Hi.
Qed.

Lemma listing_iff {A} (R : A -> A -> Prop) (P Q : A -> Prop) l :
  listing R P l -> (forall x, P x <-> Q x) -> listing R Q l.
Proof. intros [Hs Hi] H. split; auto. intros x. now rewrite Hi. Qed.

Lemma lenN_app {A} (l l' : list A) : lenN (l ++ l') = (lenN l + lenN l')%N.
Proof. unfold lenN. rewrite app_length. lia. Qed.

Lemma limited_all {A} limit (l : list A) : (lenN l <= limit)%N -> limited limit l = l.
Proof. unfold limited, lenN. intros H. apply firstn_all2. lia. Qed.

Lemma reversed_invol e : reversed (reversed e) = e.
Proof. now destruct e. Qed.

(** ** Orders of edge types *)

Record type_order (tlt : ident -> ident -> Prop) : Prop := {
  to_irrefl : forall t, ~ tlt t t;
  to_trans : forall a b c, tlt a b -> tlt b c -> tlt a c;
  to_min : forall t, ~ tlt t empty_ident }.

Lemma zeros_min : forall n l, length l = n -> list_cmp l (repeat x00 n) <> Lt.
Proof.
  induction n as [|n IH]; intros [|b l]; cbn -[cmp]; try easy.
  intros H. injection H as H.
  destruct (cmp b x00) eqn:E; try easy.
  - auto.
  - exfalso. cbn in E. rewrite N.compare_lt_iff in E. change (bN x00) with 0%N in E. lia.
Qed.

Lemma nil_min u : ~ lt u nil_uuid.
Proof. apply (@zeros_min 16 (ub u)). apply ub_length. Qed.

Lemma lex_order : type_order lt.
Proof.
  split.
  - apply lt_irrefl.
  - apply lt_trans.
  - intros t. unfold lt. cbn. destruct (ib t); easy.
Qed.

Section Elt.
  Variable tlt : ident -> ident -> Prop.
  Hypothesis T : type_order tlt.
  Notation elt := (elt tlt).

  Lemma elt_irrefl e : ~ elt e e.
  Proof.
    intros [H|[_ [H|[_ H]]]].
    - now apply lt_irrefl in H.
    - now apply (to_irrefl T) in H.
    - now apply lt_irrefl in H.
  Qed.
  Lemma elt_trans a b c : elt a b -> elt b c -> elt a c.
  Proof.
    intros [H1|[E1 H1]] [H2|[E2 H2]].
    - left. eapply lt_trans; eauto.
    - left. now rewrite <- E2.
    - left. now rewrite E1.
    - right. split; [congruence|]. destruct H1 as [H1|[F1 H1]], H2 as [H2|[F2 H2]].
      + left. eapply (to_trans T); eauto.
      + left. now rewrite <- F2.
      + left. now rewrite F1.
      + right. split; [congruence|]. eapply lt_trans; eauto.
  Qed.
  Lemma elt_asym a b : elt a b -> ~ elt b a.
  Proof. intros H1 H2. eapply elt_irrefl, elt_trans; eauto. Qed.

  (** The edges at or after the lower bound used by pipes, up to the next
      vertex, are the edges of the vertex with an acceptable type. *)
  Lemma lower_bound id t e :
    eout e = id -> type_ok t (et e) ->
    ~ elt e (Edge id (match t with Some t' => t' | None => empty_ident end) nil_uuid).
  Proof.
    intros Ho Ht [H|[_ [H|[_ H]]]]; cbn in *.
    - rewrite Ho in H. now apply lt_irrefl in H.
    - destruct t as [t'|]; cbn in Ht.
      + subst. now apply (to_irrefl T) in H.
      + now apply (to_min T) in H.
    - now apply nil_min in H.
  Qed.
  Lemma above_bound id t e :
    ~ elt e (Edge id t nil_uuid) -> ~ lt (eout e) id.
  Proof. intros H L. apply H. now left. Qed.
End Elt.

Lemma vlt_irrefl v : ~ vlt v v.
Proof. apply lt_irrefl. Qed.
Lemma vlt_asym v w : vlt v w -> ~ vlt w v.
Proof. apply lt_asym. Qed.

Lemma type_okb_ok t x : type_okb t x = true <-> type_ok t x.
Proof. destruct t as [t|]; cbn -[eqb]; [apply eqb_eq|tauto]. Qed.

Lemma t_matches_Ok {A} (f : A -> ident) t x : t_matches f t (Ok x) = type_okb t (f x).
Proof. now destruct t. Qed.

Lemma filter_t_matches {A} (f : A -> ident) t (l : list A) :
  filter (t_matches f t) (map Ok l) = map Ok (filter (fun x => type_okb t (f x)) l).
Proof.
  rewrite filter_map_Ok. apply (f_equal (map Ok)), filter_ext. intros x. apply t_matches_Ok.
Qed.

(** ** Agreement of primitive reads with a graph *)

Section Agree.
  Context {S : Type}.
  Variable ops : txn_ops S.
  Variable s : S.
  Variable g : graph.
  Variable tlt : ident -> ident -> Prop.
  Variable vmatch : json -> json -> Prop.
  (** Property names whose index can be trusted. *)
  Variable ixok : ident -> Prop.
  (** Vertices whose complete property list cannot be read (it panics). *)
  Variable bad : uuid -> Prop.

  Notation elt := (elt tlt).

  Definition yields {A} (x : outcome (iter A)) (l : list A) : Prop := x = Ok (map Ok l).

  (** What an index lookup may answer for name [n]. *)
  Definition lookup {A} (n : ident) (x : outcome (option (iter A))) (P : list A -> Prop) : Prop :=
    (x = Ok None /\ ~ indexed g n) \/
    (exists l, x = Ok (Some (map Ok l)) /\ indexed g n /\ (ixok n -> NoDup l /\ P l)).

  Record reads_ok : Prop := {
    ro_all_vertices : exists l, yields (t_all_vertices ops s) l /\ listing vlt (is_vertex g) l;
    ro_vertex_count : exists l, t_vertex_count ops s = Ok (lenN l) /\ listing vlt (is_vertex g) l;
    ro_range_vertices : forall id, exists l, yields (t_range_vertices ops s id) l /\
      listing vlt (fun v => is_vertex g v /\ ~ lt (vid v) id) l;
    ro_specific_vertices : forall ids, yields (t_specific_vertices ops s ids) (flat_map (found g) ids);
    ro_all_edges : exists l, yields (t_all_edges ops s) l /\ listing elt (is_edge g) l;
    ro_edge_count : exists l, t_edge_count ops s = Ok (lenN l) /\ listing elt (is_edge g) l;
    ro_range_edges : forall lo, exists l, yields (t_range_edges ops s lo) l /\
      listing elt (fun e => is_edge g e /\ ~ elt e lo) l;
    ro_range_reversed : forall lo, exists l, yields (t_range_reversed_edges ops s lo) l /\
      listing elt (fun e => is_edge g (reversed e) /\ ~ elt e lo) l;
    ro_specific_edges : forall es, exists l, yields (t_specific_edges ops s es) l /\ keeps (is_edge g) es l;
    ro_vindex : forall n, lookup n (t_vertex_ids_with_property ops s n) (fun l =>
      forall v, is_vertex g v -> (In (vid v) l <-> has (vprop_fn g v) n));
    ro_vindex_value : forall n x, lookup n (t_vertex_ids_with_property_value ops s n x) (fun l =>
      forall v, is_vertex g v -> (In (vid v) l <-> has_value vmatch (vprop_fn g v) n x));
    ro_eindex : forall n, lookup n (t_edges_with_property ops s n) (fun l =>
      forall e, In e l <-> is_edge g e /\ has (eprop_fn g e) n);
    ro_eindex_value : forall n x, lookup n (t_edges_with_property_value ops s n x) (fun l =>
      forall e, In e l <-> is_edge g e /\ has_value vmatch (eprop_fn g e) n x);
    ro_vprop : forall v n, t_vertex_property ops s v n = Ok (vprop_fn g v n);
    ro_all_vprops : forall v, ~ bad (vid v) -> exists l, yields (t_all_vertex_properties ops s v) l /\
      listing (fun a b => lt (fst a) (fst b)) (fun a => vprop_fn g v (fst a) = Some (snd a)) l;
    ro_bad_vprops : forall v, bad (vid v) -> t_all_vertex_properties ops s v = Panic;
    ro_bad_dec : forall u, bad u \/ ~ bad u;
    ro_eprop : forall e n, t_edge_property ops s e n = Ok (eprop_fn g e n);
    ro_all_eprops : forall e, exists l, yields (t_all_edge_properties ops s e) l /\
      listing (fun a b => lt (fst a) (fst b)) (fun a => eprop_fn g e (fst a) = Some (snd a)) l }.

  Hypothesis T : type_order tlt.
  Hypothesis RO : reads_ok.

  (** *** Pipes *)

  Lemma found_vertex v id : In v (found g id) <-> is_vertex g v /\ vid v = id.
  Proof.
    unfold found, is_vertex. destruct (get id (gv g)) as [t|] eqn:E; cbn; split.
    - intros [<-|[]]. cbn. auto.
    - intros [H <-]. left. destruct v as [i t']; cbn in *. congruence.
    - tauto.
    - intros [H <-]. congruence.
  Qed.

  Lemma in_found v ids : In v (flat_map (found g) ids) <-> is_vertex g v /\ In (vid v) ids.
  Proof.
    rewrite in_flat_map. split.
    - intros (id & Hid & Hv). apply found_vertex in Hv as [Hv <-]. auto.
    - intros [Hv Hin]. exists (vid v). split; auto. now apply found_vertex.
  Qed.

  Lemma found_NoDup ids : NoDup ids -> NoDup (flat_map (found g) ids).
  Proof.
    induction 1 as [|id ids Hni Hnd IH]; cbn; [constructor|].
    unfold found at 1. destruct (get id (gv g)) as [t|] eqn:E; cbn; [|assumption].
    constructor; [|assumption]. rewrite in_found. cbn. tauto.
  Qed.

  Definition step_edges (d : direction) (t : option ident) (v : vertex) (it : iter edge) : iter edge :=
    let it := take_while (ok_or_true (fun e => eqb (eout e) (vid v))) it in
    let it := filter (t_matches et t) it in
    match d with Inbound => map (omapo reversed) it | Outbound => it end.

  (** The edges collected for one vertex. *)
  Lemma pipe_one d t v :
    exists l, edges_at tlt g d t v l /\
      exists it, match d with
                 | Outbound => t_range_edges ops s (Edge (vid v) (match t with Some t' => t' | None => empty_ident end) nil_uuid)
                 | Inbound => t_range_reversed_edges ops s (Edge (vid v) (match t with Some t' => t' | None => empty_ident end) nil_uuid)
                 end = Ok it /\ step_edges d t v it = map Ok l.
  Proof.
    set (lo := Edge (vid v) (match t with Some t' => t' | None => empty_ident end) nil_uuid).
    assert (forall (l : list edge) (Q : edge -> Prop),
      listing elt (fun e => Q e /\ ~ elt e lo) l ->
      take_while (fun e => eqb (eout e) (vid v)) l = filter (fun e => eqb (eout e) (vid v)) l) as TW.
    { intros l Q [Hs Hi]. eapply take_while_is_filter; [exact Hs|].
      intros x y Hx Hy Hxy Hpy. apply eqb_eq in Hpy. apply eqb_eq.
      apply Hi in Hx as [_ Hx]. apply above_bound in Hx.
      apply not_lt_le in Hx as [Hx|Hx]; [assumption|exfalso].
      destruct Hxy as [H|[H _]].
      - rewrite Hpy in H. now apply lt_asym in H.
      - rewrite <- Hpy, H in Hx. now apply lt_irrefl in Hx. }
    assert (forall (l : list edge) (Q : edge -> Prop),
      listing elt (fun e => Q e /\ ~ elt e lo) l ->
      listing elt (fun e => Q e /\ eout e = vid v /\ type_ok t (et e))
        (filter (fun e => type_okb t (et e)) (filter (fun e => eqb (eout e) (vid v)) l))) as FL.
    { intros l Q Hl. eapply listing_filter; [eapply listing_filter; [exact Hl|]|].
      - intros x. apply iff_refl.
      - intros x. cbn. rewrite eqb_eq, type_okb_ok. split.
        + tauto.
        + intros (HQ & Ho & Ht). repeat split; auto. now apply (lower_bound T). }
    destruct d.
    - destruct (ro_range_edges RO lo) as (l & Hy & Hl).
      exists (filter (fun e => type_okb t (et e)) (filter (fun e => eqb (eout e) (vid v)) l)).
      split.
      + unfold edges_at. cbn [dir_lt endpoint]. exact (FL l (is_edge g) Hl).
      + exists (map Ok l). split; [exact Hy|].
        unfold step_edges. rewrite take_while_map. cbn [ok_or_true].
        rewrite (TW l (is_edge g) Hl), filter_t_matches. reflexivity.
    - destruct (ro_range_reversed RO lo) as (l & Hy & Hl).
      set (l' := filter (fun e => type_okb t (et e)) (filter (fun e => eqb (eout e) (vid v)) l)).
      pose proof (FL l (fun e => is_edge g (reversed e)) Hl) as Hl'. fold l' in Hl'.
      exists (map reversed l').
      split.
      + unfold edges_at. eapply listing_map; [exact Hl'| |].
        * intros x y Hxy. cbn [dir_lt]. now rewrite !reversed_invol.
        * intros e. cbn [endpoint]. split.
          -- intros (He & Hi & Ht). exists (reversed e). rewrite reversed_invol. cbn. auto.
          -- intros (x & <- & Hx & Ho & Ht). cbn. auto.
      + exists (map Ok l). split; [exact Hy|].
        unfold step_edges. rewrite take_while_map. cbn [ok_or_true].
        rewrite (TW l (fun e => is_edge g (reversed e)) Hl), filter_t_matches.
        fold l'. rewrite !map_map. reflexivity.
  Qed.

  Lemma pipe_vertices_step d limit t v vs acc :
    pipe_vertices ops s d limit t (v :: vs) acc =
    (let? it := match d with
                | Outbound => t_range_edges ops s (Edge (vid v) (match t with Some t' => t' | None => empty_ident end) nil_uuid)
                | Inbound => t_range_reversed_edges ops s (Edge (vid v) (match t with Some t' => t' | None => empty_ident end) nil_uuid)
                end in
     let? n := checked_sub limit (lenN acc) in
     let? new := collect (takeN n (step_edges d t v it)) in
     if (limit <=? lenN (acc ++ new))%N then Ok (acc ++ new)
     else pipe_vertices ops s d limit t vs (acc ++ new)).
  Proof. reflexivity. Qed.

  Lemma edges_at_all d t vs : exists ls, Forall2 (edges_at tlt g d t) vs ls.
  Proof.
    induction vs as [|v vs (ls & IH)]; [exists []; constructor|].
    destruct (pipe_one d t v) as (l & Hl & _). exists (l :: ls). now constructor.
  Qed.

  Lemma pipe_vertices_ok d limit t vs acc :
    (lenN acc <= limit)%N ->
    exists ls, Forall2 (edges_at tlt g d t) vs ls /\
      pipe_vertices ops s d limit t vs acc = Ok (acc ++ limited (limit - lenN acc) (concat ls)).
  Proof.
    revert acc; induction vs as [|v vs IH]; intros acc Hacc.
    - exists []. split; [constructor|]. cbn. unfold limited. now rewrite firstn_nil, app_nil_r.
    - destruct (pipe_one d t v) as (l & Hl & it & Hit & Hstep).
      rewrite pipe_vertices_step, Hit. cbn [obind]. unfold checked_sub.
      destruct (N.ltb_spec limit (lenN acc)) as [Hlt|_]; [lia|]. cbn [obind].
      rewrite Hstep, takeN_map, collect_Ok, takeN_firstn. cbn [obind].
      set (new := firstn (N.to_nat (limit - lenN acc)) l).
      assert (length new = Nat.min (N.to_nat (limit - lenN acc)) (length l)) as Hlen
        by apply firstn_length.
      destruct (N.leb_spec limit (lenN (acc ++ new))) as [Hfull|Hroom].
      + destruct (edges_at_all d t vs) as (ls & Hls).
        exists (l :: ls). split; [now constructor|]. do 2 f_equal. cbn [concat]. unfold limited.
        rewrite firstn_app. fold new.
        replace (N.to_nat (limit - lenN acc) - length l) with 0; [now rewrite firstn_O, app_nil_r|].
        rewrite lenN_app in Hfull. unfold lenN in *. lia.
      + assert (new = l) as Enew.
        { clear - Hroom Hlen Hacc. unfold new. apply firstn_all2. rewrite lenN_app in Hroom. unfold lenN in *. lia. }
        destruct (IH (acc ++ new)) as (ls & Hls & Hp); [lia|].
        exists (l :: ls). split; [now constructor|]. rewrite Hp, <- app_assoc. do 2 f_equal.
        cbn [concat]. unfold limited. rewrite firstn_app. fold new. f_equal.
        f_equal. rewrite lenN_app, Enew. unfold lenN. lia.
  Qed.

  Lemma pipe_edges_ok d limit t es :
    exists l, keeps (fun v => type_ok t (vt v)) (flat_map (found g) (map (endpoint d) es)) l /\
      pipe_edges ops s d limit t es = Ok (limited limit l).
  Proof.
    unfold pipe_edges.
    replace (map (match d with Outbound => eout | Inbound => ein end) es) with (map (endpoint d) es)
      by (destruct d; reflexivity).
    rewrite (ro_specific_vertices RO). cbn [obind].
    rewrite filter_t_matches, takeN_map, collect_Ok, takeN_firstn.
    eexists. split; [|reflexivity]. apply keeps_filter. intros x _. apply type_okb_ok.
  Qed.

  (** *** Properties *)

  Lemma props_single (p : ident -> option json) n :
    props_at p (Some n) (match p n with Some x => [NProp n x] | None => [] end).
  Proof.
    unfold props_at, listing. destruct (p n) as [x|] eqn:E; split.
    - repeat constructor.
    - intros [m y]. cbn. split.
      + intros [H|[]]. inversion H; subst. auto.
      + intros [H ->]. left. congruence.
    - constructor.
    - intros [m y]. cbn. split; [tauto|]. intros [H ->]. congruence.
  Qed.

  Lemma props_all (p : ident -> option json) (l : list (ident * json)) :
    listing (fun a b => lt (fst a) (fst b)) (fun a => p (fst a) = Some (snd a)) l ->
    props_at p None (map (fun a => NProp (fst a) (snd a)) l).
  Proof.
    intros Hl. unfold props_at. eapply listing_map; [exact Hl| |].
    - intros x y H. exact H.
    - intros [m y]. cbn. split.
      + intros [H _]. exists (m, y). auto.
      + intros ([m' y'] & H & Hp). cbn in *. inversion H; subst. auto.
  Qed.

  Lemma props_of_vertices_ok name vs :
    (name = None -> Forall (fun v => ~ bad (vid v)) vs) ->
    exists pss, Forall2 (fun v ps => props_at (vprop_fn g v) name ps) vs pss /\
      props_of_vertices ops s name vs = Ok (flat_map nonempty_v (combine vs pss)).
  Proof.
    induction vs as [|v vs IH]; intros Hb.
    - exists []. split; [constructor|reflexivity].
    - destruct IH as (pss & Hps & IH).
      { intros E. specialize (Hb E). now inversion Hb. }
      cbn [props_of_vertices]. destruct name as [n|].
      + rewrite (ro_vprop RO). cbn [obind]. rewrite IH. cbn [obind].
        exists ((match vprop_fn g v n with Some x => [NProp n x] | None => [] end) :: pss).
        split; [constructor; auto; apply props_single|].
        cbn. destruct (vprop_fn g v n); reflexivity.
      + specialize (Hb eq_refl). inversion Hb as [|? ? Hv Hvs]; subst.
        destruct (ro_all_vprops RO v Hv) as (l & Hy & Hl). unfold yields in Hy. rewrite Hy.
        cbn [obind]. rewrite collect_Ok. cbn [obind]. rewrite IH. cbn [obind].
        exists (map (fun a => NProp (fst a) (snd a)) l :: pss).
        split; [constructor; auto; now apply props_all|].
        destruct (map (fun a => NProp (fst a) (snd a)) l); reflexivity.
  Qed.

  Lemma props_of_vertices_bad vs :
    ~ Forall (fun v => ~ bad (vid v)) vs ->
    props_of_vertices ops s None vs = Panic.
  Proof.
    induction vs as [|v vs IH]; intros Hb.
    - exfalso. apply Hb. constructor.
    - cbn [props_of_vertices]. destruct (ro_bad_dec RO (vid v)) as [B|B].
      + now rewrite (ro_bad_vprops RO v B).
      + destruct (ro_all_vprops RO v B) as (l & Hy & Hl). unfold yields in Hy. rewrite Hy.
        cbn [obind]. rewrite collect_Ok. cbn [obind]. rewrite IH; [reflexivity|].
        intros F. apply Hb. now constructor.
  Qed.

  Lemma forall_bad_dec (vs : list vertex) :
    Forall (fun v => ~ bad (vid v)) vs \/ ~ Forall (fun v => ~ bad (vid v)) vs.
  Proof.
    induction vs as [|v vs [IH|IH]]; [left; constructor| |].
    - destruct (ro_bad_dec RO (vid v)) as [B|B]; [right|left; now constructor].
      intros F. now inversion F.
    - right. intros F. now inversion F.
  Qed.

  Lemma not_forall_exists_bad (vs : list vertex) :
    ~ Forall (fun v => ~ bad (vid v)) vs -> Exists (fun v => bad (vid v)) vs.
  Proof.
    induction vs as [|v vs IH]; intros H; [destruct H; constructor|].
    destruct (ro_bad_dec RO (vid v)) as [B|B]; [now left|right].
    apply IH. intros F. apply H. now constructor.
  Qed.

  Lemma props_of_edges_ok name es :
    exists pss, Forall2 (fun e ps => props_at (eprop_fn g e) name ps) es pss /\
      props_of_edges ops s name es = Ok (flat_map nonempty_e (combine es pss)).
  Proof.
    induction es as [|e es (pss & Hps & IH)].
    - exists []. split; [constructor|reflexivity].
    - cbn [props_of_edges]. destruct name as [n|].
      + rewrite (ro_eprop RO). cbn [obind]. rewrite IH. cbn [obind].
        exists ((match eprop_fn g e n with Some x => [NProp n x] | None => [] end) :: pss).
        split; [constructor; auto; apply props_single|].
        cbn. destruct (eprop_fn g e n); reflexivity.
      + destruct (ro_all_eprops RO e) as (l & Hy & Hl). unfold yields in Hy. rewrite Hy.
        cbn [obind]. rewrite collect_Ok. cbn [obind]. rewrite IH. cbn [obind].
        exists (map (fun a => NProp (fst a) (snd a)) l :: pss).
        split; [constructor; auto; now apply props_all|].
        destruct (map (fun a => NProp (fst a) (snd a)) l); reflexivity.
  Qed.

  (** *** Values delivered by queries consist of existing elements *)

  Definition value_exists (v : outv) : Prop :=
    match v with
    | Vertices l => Forall (is_vertex g) l
    | Edges l => Forall (is_edge g) l
    | _ => True
    end.

  Lemma limited_In {A} limit (l : list A) x : In x (limited limit l) -> In x l.
  Proof.
    unfold limited. intros H. rewrite <- (firstn_skipn (N.to_nat limit) l). apply in_or_app. now left.
  Qed.

  Lemma Forall2_In_r {A B} (P : A -> B -> Prop) l l' y :
    Forall2 P l l' -> In y l' -> exists x, In x l /\ P x y.
  Proof.
    induction 1 as [|a b l l' H F IH]; cbn; [tauto|].
    intros [<-|Hy]; [exists a; auto|]. destruct (IH Hy) as (x & Hx & Hp). exists x. auto.
  Qed.

  Lemma evals_exists q ex v : evals tlt vmatch g q ex v -> value_exists v.
  Proof.
    induction 1; cbn [value_exists] in *; auto; rewrite ?Forall_forall in *; intros y Hy.
    - now apply H.
    - apply limited_In in Hy. now apply H in Hy.
    - now apply in_found in Hy.
    - now apply H1 in Hy.
    - now apply H1 in Hy.
    - now apply H.
    - eapply keeps_incl in Hy; [|eassumption]. tauto.
    - now apply H1 in Hy.
    - now apply H1 in Hy.
    - apply limited_In in Hy. eapply keeps_incl in Hy; [|eassumption]. destruct Hy as [Hy _].
      now apply in_found in Hy.
    - apply limited_In in Hy. apply in_concat in Hy as (l0 & Hl & Hy).
      eapply Forall2_In_r in Hl; [|eassumption]. destruct Hl as (w & _ & [_ Hi]). now apply Hi in Hy.
    - eapply keeps_incl in Hy; [|eassumption]. now apply IHevals.
    - eapply keeps_incl in Hy; [|eassumption]. now apply IHevals.
    - eapply keeps_incl in Hy; [|eassumption]. now apply IHevals.
    - eapply keeps_incl in Hy; [|eassumption]. now apply IHevals.
  Qed.

  (** *** The main theorem *)

  (** Index names consulted anywhere in a query. *)
  Fixpoint index_names (q : query) : list ident :=
    match q with
    | QVertexWithPropertyPresence n | QVertexWithPropertyValue n _
    | QEdgeWithPropertyPresence n | QEdgeWithPropertyValue n _ => [n]
    | QPipeWithPropertyPresence q n _ | QPipeWithPropertyValue q n _ _ => n :: index_names q
    | QPipe q _ _ _ | QPipeProperty q _ | QInclude q | QCount q => index_names q
    | _ => []
    end.

  (** Some stage asks for all properties of a bad vertex. *)
  Inductive hits_bad : query -> Prop :=
  | hits_here inner ex vs :
      evals tlt vmatch g inner ex (Vertices vs) -> Exists (fun v => bad (vid v)) vs ->
      hits_bad (QPipeProperty inner None)
  | hits_inner q inner : inner_of q = Some inner -> hits_bad inner -> hits_bad q.

  Definition query_ok (q : query) (out : list outv) : Prop :=
    (exists ex v, query_exec ops s q out = Ok (v :: rev ex ++ out) /\ evals tlt vmatch g q ex v) \/
    (exists e, query_exec ops s q out = Err e /\ fails tlt vmatch g q e) \/
    (query_exec ops s q out = Panic /\ hits_bad q).

  Lemma re_export_spec inner v ex out :
    re_export inner v (rev ex ++ out) = rev (ex ++ exported inner v) ++ out.
  Proof.
    unfold re_export, exported. destruct inner; cbn [is_include]; rewrite ?app_nil_r; auto.
    rewrite rev_app_distr. reflexivity.
  Qed.

  Lemma contains_In {A} {O : Ord A} (x : A) l : contains x l = true <-> In x l.
  Proof.
    unfold contains. rewrite existsb_exists. split.
    - intros (y & Hy & E). apply eqb_eq in E. now subst.
    - intros Hx. exists x. split; auto. apply eqb_refl.
  Qed.

  Lemma flagged_iff flag c (P : Prop) : (c = true <-> P) -> flagged flag c = true <-> flag_holds flag P.
  Proof.
    unfold flagged, flag_holds. intros H. destruct flag, c; cbn; rewrite <- H; split; auto; try discriminate; try tauto.
  Qed.

  Lemma indexed_or_err_Some {A} (x : outcome (option (iter A))) l :
    x = Ok (Some (map Ok l)) -> indexed_or_err x = Ok l.
  Proof. intros ->. unfold indexed_or_err. cbn. apply collect_Ok. Qed.
  Lemma indexed_or_err_None {A} (x : outcome (option (iter A))) :
    x = Ok None -> indexed_or_err x = Err NotIndexed.
  Proof. now intros ->. Qed.

  (** An inner query that fails or panics makes the whole stage do so. *)
  Lemma stage_lift q inner (k : list outv -> outcome (list outv)) out :
    inner_of q = Some inner ->
    query_exec ops s q out = obind (query_exec ops s inner out) k ->
    query_ok inner out ->
    (forall ex v, evals tlt vmatch g inner ex v ->
       query_exec ops s q out = k (v :: rev ex ++ out) -> query_ok q out) ->
    query_ok q out.
  Proof.
    intros Hin Hq [(ex & v & E & Hev)|[(e & E & Hf)|(E & Hb)]] Hk.
    - apply (Hk ex v Hev). now rewrite Hq, E.
    - right; left. exists e. rewrite Hq, E. split; [reflexivity|]. eapply fail_inner; eauto.
    - right; right. rewrite Hq, E. split; [reflexivity|]. eapply hits_inner; eauto.
  Qed.

  (** The stage pops the value and computes from it. *)
  Lemma stage_done q inner (fv : outcome outv) ex v out :
    inner_of q = Some inner ->
    evals tlt vmatch g inner ex v ->
    query_exec ops s q out =
      (let? value := fv in Ok (value :: re_export inner v (rev ex ++ out))) ->
    (exists w, fv = Ok w /\ evals tlt vmatch g q (ex ++ exported inner v) w) \/
    (exists e, fv = Err e /\ fails tlt vmatch g q e) \/
    (fv = Panic /\ hits_bad q) ->
    query_ok q out.
  Proof.
    intros Hin Hev Hq [(w & E & Hw)|[(e & E & Hf)|(E & Hb)]]; rewrite E in Hq; cbn [obind] in Hq.
    - left. exists (ex ++ exported inner v), w. rewrite Hq, re_export_spec. auto.
    - right; left. eauto.
    - right; right. eauto.
  Qed.

  Theorem query_exec_ok q : forall out,
    (forall n, In n (index_names q) -> indexed g n -> ixok n) -> query_ok q out.
  Proof.
    induction q as [|limit t start|ids|n|n x| |es|n|n x|inner IH d limit t|inner IH name|inner IH n ok
                    |inner IH n x ok|inner IH|inner IH]; intros out Hix; cbn [index_names] in Hix.
    - (* all vertices *)
      destruct (ro_all_vertices RO) as (l & Hy & Hl). unfold yields in Hy. left. exists [], (Vertices l).
      split; [|now constructor]. cbn. rewrite Hy. cbn. now rewrite collect_Ok.
    - (* range *)
      left. destruct start as [id|].
      + destruct (ro_range_vertices RO id) as (l & Hy & Hl). unfold yields in Hy.
        exists [], (Vertices (limited limit (filter (fun v => type_okb t (vt v)) l))). split.
        * cbn [query_exec]. rewrite Hy. cbn [obind].
          rewrite filter_t_matches, takeN_map, collect_Ok, takeN_firstn. reflexivity.
        * constructor. eapply listing_filter; [exact Hl|]. intros v. cbn. rewrite type_okb_ok. tauto.
      + destruct (ro_all_vertices RO) as (l & Hy & Hl). unfold yields in Hy.
        exists [], (Vertices (limited limit (filter (fun v => type_okb t (vt v)) l))). split.
        * cbn [query_exec]. rewrite Hy. cbn [obind].
          rewrite filter_t_matches, takeN_map, collect_Ok, takeN_firstn. reflexivity.
        * constructor. eapply listing_filter; [exact Hl|]. intros v. cbn. rewrite type_okb_ok. tauto.
    - (* specific vertices *)
      left. exists [], (Vertices (flat_map (found g) ids)). split; [|constructor].
      cbn [query_exec]. rewrite (ro_specific_vertices RO). cbn. now rewrite collect_Ok.
    - (* vertices with property *)
      destruct (ro_vindex RO n) as [[E Hn]|(l & E & Hn & Hok)].
      + right; left. exists NotIndexed. split.
        * cbn [query_exec]. now rewrite (indexed_or_err_None E).
        * eapply fail_leaf; [reflexivity|reflexivity|assumption].
      + destruct (Hok (Hix n (or_introl eq_refl) Hn)) as [Hnd Hl].
        left. exists [], (Vertices (flat_map (found g) l)). split.
        * cbn [query_exec]. rewrite (indexed_or_err_Some _ E). cbn [obind].
          rewrite (ro_specific_vertices RO). cbn. now rewrite collect_Ok.
        * constructor; [assumption|now apply found_NoDup|].
          intros v. rewrite in_found. split; intros [Hv Hx]; split; auto; now apply (Hl v Hv).
    - (* vertices with property value *)
      destruct (ro_vindex_value RO n x) as [[E Hn]|(l & E & Hn & Hok)].
      + right; left. exists NotIndexed. split.
        * cbn [query_exec]. now rewrite (indexed_or_err_None E).
        * eapply fail_leaf; [reflexivity|reflexivity|assumption].
      + destruct (Hok (Hix n (or_introl eq_refl) Hn)) as [Hnd Hl].
        left. exists [], (Vertices (flat_map (found g) l)). split.
        * cbn [query_exec]. rewrite (indexed_or_err_Some _ E). cbn [obind].
          rewrite (ro_specific_vertices RO). cbn. now rewrite collect_Ok.
        * constructor; [assumption|now apply found_NoDup|].
          intros v. rewrite in_found. split; intros [Hv Hx]; split; auto; now apply (Hl v Hv).
    - (* all edges *)
      destruct (ro_all_edges RO) as (l & Hy & Hl). unfold yields in Hy. left. exists [], (Edges l).
      split; [|now constructor]. cbn. rewrite Hy. cbn. now rewrite collect_Ok.
    - (* specific edges *)
      destruct (ro_specific_edges RO es) as (l & Hy & Hl). unfold yields in Hy. left. exists [], (Edges l).
      split; [|now constructor]. cbn. rewrite Hy. cbn. now rewrite collect_Ok.
    - (* edges with property *)
      destruct (ro_eindex RO n) as [[E Hn]|(l & E & Hn & Hok)].
      + right; left. exists NotIndexed. split.
        * cbn [query_exec]. now rewrite (indexed_or_err_None E).
        * eapply fail_leaf; [reflexivity|reflexivity|assumption].
      + destruct (Hok (Hix n (or_introl eq_refl) Hn)) as [Hnd Hl].
        left. exists [], (Edges l). split; [|now constructor].
        cbn [query_exec]. now rewrite (indexed_or_err_Some _ E).
    - (* edges with property value *)
      destruct (ro_eindex_value RO n x) as [[E Hn]|(l & E & Hn & Hok)].
      + right; left. exists NotIndexed. split.
        * cbn [query_exec]. now rewrite (indexed_or_err_None E).
        * eapply fail_leaf; [reflexivity|reflexivity|assumption].
      + destruct (Hok (Hix n (or_introl eq_refl) Hn)) as [Hnd Hl].
        left. exists [], (Edges l). split; [|now constructor].
        cbn [query_exec]. now rewrite (indexed_or_err_Some _ E).
    - (* pipe *)
      eapply stage_lift; [reflexivity|cbn [query_exec]; reflexivity|now apply IH|].
      intros ex v Hev Hq. eapply (stage_done (inner := inner)); [reflexivity|exact Hev| |].
      + rewrite Hq. cbn [pop]. reflexivity.
      + destruct v as [vs|es|c|l|l]; cbn beta iota.
        * destruct (@pipe_vertices_ok d limit t vs []) as (ls & Hls & E); [cbn; lia|].
          left. eexists. rewrite E. split; [reflexivity|]. cbn [app]. rewrite N.sub_0_r.
          econstructor; eassumption.
        * destruct (pipe_edges_ok d limit t es) as (l & Hl & E).
          left. eexists. rewrite E. split; [reflexivity|]. econstructor; eassumption.
        * right; left. exists OperationOnQuery. split; [reflexivity|]. eapply fail_kind; eauto; reflexivity.
        * right; left. exists OperationOnQuery. split; [reflexivity|]. eapply fail_kind; eauto; reflexivity.
        * right; left. exists OperationOnQuery. split; [reflexivity|]. eapply fail_kind; eauto; reflexivity.
    - (* pipe property *)
      eapply stage_lift; [reflexivity|cbn [query_exec]; reflexivity|now apply IH|].
      intros ex v Hev Hq. eapply (stage_done (inner := inner)); [reflexivity|exact Hev| |].
      + rewrite Hq. cbn [pop]. reflexivity.
      + destruct v as [vs|es|c|l|l]; cbn beta iota.
        * destruct name as [n|].
          -- destruct (@props_of_vertices_ok (Some n) vs) as (pss & Hps & E); [discriminate|].
             left. eexists. rewrite E. split; [reflexivity|]. econstructor; eassumption.
          -- destruct (forall_bad_dec vs) as [F|F].
             ++ destruct (@props_of_vertices_ok None vs) as (pss & Hps & E); [auto|].
                left. eexists. rewrite E. split; [reflexivity|]. econstructor; eassumption.
             ++ right; right. rewrite props_of_vertices_bad by assumption. split; [reflexivity|].
                eapply hits_here; [eassumption|]. now apply not_forall_exists_bad.
        * destruct (props_of_edges_ok name es) as (pss & Hps & E).
          left. eexists. rewrite E. split; [reflexivity|]. econstructor; eassumption.
        * right; left. exists OperationOnQuery. split; [reflexivity|]. eapply fail_kind; eauto; reflexivity.
        * right; left. exists OperationOnQuery. split; [reflexivity|]. eapply fail_kind; eauto; reflexivity.
        * right; left. exists OperationOnQuery. split; [reflexivity|]. eapply fail_kind; eauto; reflexivity.
    - (* pipe with presence *)
      eapply stage_lift; [reflexivity|cbn [query_exec]; reflexivity|apply IH; intros; apply Hix; cbn; auto|].
      intros ex v Hev Hq. eapply (stage_done (inner := inner)); [reflexivity|exact Hev| |].
      + rewrite Hq. cbn [pop]. reflexivity.
      + pose proof (evals_exists Hev) as Hex.
        destruct v as [vs|es|c|l|l]; cbn beta iota; cbn [value_exists] in Hex; rewrite ?Forall_forall in Hex.
        * destruct (ro_vindex RO n) as [[E Hn]|(l & E & Hn & Hok)].
          -- right; left. exists NotIndexed. rewrite (indexed_or_err_None E). split; [reflexivity|].
             eapply fail_stage; eauto; reflexivity.
          -- destruct (Hok (Hix n (or_introl eq_refl) Hn)) as [Hnd Hl].
             left. eexists. rewrite (indexed_or_err_Some _ E). split; [reflexivity|].
             econstructor; [eassumption|assumption|]. apply keeps_filter.
             intros y Hy. apply flagged_iff. rewrite contains_In. apply Hl. auto.
        * destruct (ro_eindex RO n) as [[E Hn]|(l & E & Hn & Hok)].
          -- right; left. exists NotIndexed. rewrite (indexed_or_err_None E). split; [reflexivity|].
             eapply fail_stage; eauto; reflexivity.
          -- destruct (Hok (Hix n (or_introl eq_refl) Hn)) as [Hnd Hl].
             left. eexists. rewrite (indexed_or_err_Some _ E). split; [reflexivity|].
             econstructor; [eassumption|assumption|]. apply keeps_filter.
             intros y Hy. apply flagged_iff. rewrite contains_In, Hl. specialize (Hex y Hy). tauto.
        * right; left. exists OperationOnQuery. split; [reflexivity|]. eapply fail_kind; eauto; reflexivity.
        * right; left. exists OperationOnQuery. split; [reflexivity|]. eapply fail_kind; eauto; reflexivity.
        * right; left. exists OperationOnQuery. split; [reflexivity|]. eapply fail_kind; eauto; reflexivity.
    - (* pipe with value *)
      eapply stage_lift; [reflexivity|cbn [query_exec]; reflexivity|apply IH; intros; apply Hix; cbn; auto|].
      intros ex v Hev Hq. eapply (stage_done (inner := inner)); [reflexivity|exact Hev| |].
      + rewrite Hq. cbn [pop]. reflexivity.
      + pose proof (evals_exists Hev) as Hex.
        destruct v as [vs|es|c|l|l]; cbn beta iota; cbn [value_exists] in Hex; rewrite ?Forall_forall in Hex.
        * destruct (ro_vindex_value RO n x) as [[E Hn]|(l & E & Hn & Hok)].
          -- right; left. exists NotIndexed. rewrite (indexed_or_err_None E). split; [reflexivity|].
             eapply fail_stage; eauto; reflexivity.
          -- destruct (Hok (Hix n (or_introl eq_refl) Hn)) as [Hnd Hl].
             left. eexists. rewrite (indexed_or_err_Some _ E). split; [reflexivity|].
             econstructor; [eassumption|assumption|]. apply keeps_filter.
             intros y Hy. apply flagged_iff. rewrite contains_In. apply Hl. auto.
        * destruct (ro_eindex_value RO n x) as [[E Hn]|(l & E & Hn & Hok)].
          -- right; left. exists NotIndexed. rewrite (indexed_or_err_None E). split; [reflexivity|].
             eapply fail_stage; eauto; reflexivity.
          -- destruct (Hok (Hix n (or_introl eq_refl) Hn)) as [Hnd Hl].
             left. eexists. rewrite (indexed_or_err_Some _ E). split; [reflexivity|].
             econstructor; [eassumption|assumption|]. apply keeps_filter.
             intros y Hy. apply flagged_iff. rewrite contains_In, Hl. specialize (Hex y Hy). tauto.
        * right; left. exists OperationOnQuery. split; [reflexivity|]. eapply fail_kind; eauto; reflexivity.
        * right; left. exists OperationOnQuery. split; [reflexivity|]. eapply fail_kind; eauto; reflexivity.
        * right; left. exists OperationOnQuery. split; [reflexivity|]. eapply fail_kind; eauto; reflexivity.
    - (* include *)
      eapply stage_lift; [reflexivity|cbn [query_exec]; reflexivity|now apply IH|].
      intros ex v Hev Hq. left. exists ex, v. rewrite Hq. cbn [pop obind]. split; [reflexivity|now constructor].
    - (* count *)
      assert (forall l, listing vlt (is_vertex g) l -> inner = QAllVertex ->
        evals tlt vmatch g (QCount inner) [] (Count (lenN l))) as CV.
      { intros l Hl ->. change [] with (@nil outv ++ exported QAllVertex (Vertices l)).
        eapply ev_count; [constructor; exact Hl|reflexivity]. }
      assert (forall l, listing elt (is_edge g) l -> inner = QAllEdge ->
        evals tlt vmatch g (QCount inner) [] (Count (lenN l))) as CE.
      { intros l Hl ->. change [] with (@nil outv ++ exported QAllEdge (Edges l)).
        eapply ev_count; [constructor; exact Hl|reflexivity]. }
      destruct (ro_vertex_count RO) as (lv & Hlv & Hv). destruct (ro_edge_count RO) as (le & Hle & He).
      assert ({inner = QAllVertex} + {inner = QAllEdge} + {inner <> QAllVertex /\ inner <> QAllEdge}) as [[D|D]|[D1 D2]].
      { destruct inner; try (right; split; discriminate); left; [left|right]; reflexivity. }
      + left. exists [], (Count (lenN lv)). split; [|now apply CV].
        rewrite D. cbn [query_exec]. now rewrite Hlv.
      + left. exists [], (Count (lenN le)). split; [|now apply CE].
        rewrite D. cbn [query_exec]. now rewrite Hle.
      + assert (query_exec ops s (QCount inner) out =
          (let? out1 := query_exec ops s inner out in
           let? (piped, out2) := pop out1 in
           let? n := match piped with
                     | Vertices l => Ok (lenN l)
                     | Edges l => Ok (lenN l)
                     | VertexProperties l => Ok (lenN l)
                     | EdgeProperties l => Ok (lenN l)
                     | Count _ => Err OperationOnQuery
                     end in
           Ok (Count n :: re_export inner piped out2))) as Hc.
        { destruct inner; try reflexivity; contradiction. }
        eapply stage_lift; [reflexivity|exact Hc|now apply IH|].
        intros ex v Hev Hq. cbn [pop obind] in Hq.
        destruct v as [vs|es|c|l|l]; cbn [obind] in Hq; rewrite ?re_export_spec in Hq.
        * left. eexists (_ ++ _), _. split; [exact Hq|]. eapply ev_count; [eassumption|reflexivity].
        * left. eexists (_ ++ _), _. split; [exact Hq|]. eapply ev_count; [eassumption|reflexivity].
        * right; left. exists OperationOnQuery. split; [exact Hq|]. eapply fail_kind; eauto; reflexivity.
        * left. eexists (_ ++ _), _. split; [exact Hq|]. eapply ev_count; [eassumption|reflexivity].
        * left. eexists (_ ++ _), _. split; [exact Hq|]. eapply ev_count; [eassumption|reflexivity].
  Qed.

  (** [get]. *)
  Lemma db_get_ok q :
    (forall n, In n (index_names q) -> indexed g n -> ixok n) ->
    (exists ex v, db_get ops s q = Ok (ex ++ [v]) /\ evals tlt vmatch g q ex v) \/
    (exists e, db_get ops s q = Err e /\ fails tlt vmatch g q e) \/
    (db_get ops s q = Panic /\ hits_bad q).
  Proof.
    intros Hix. unfold db_get.
    destruct (query_exec_ok q [] Hix) as [(ex & v & E & Hev)|[(e & E & Hf)|(E & Hb)]]; rewrite E; cbn [omapo].
    - left. exists ex, v. split; [|assumption]. cbn [rev]. now rewrite app_nil_r, rev_involutive.
    - right; left. eauto.
    - right; right. eauto.
  Qed.

  (** The value popped by [delete] and [set_properties]. *)
  Lemma query_value q :
    (forall n, In n (index_names q) -> indexed g n -> ixok n) ->
    (exists ex v rest, (let? out := query_exec ops s q [] in pop out) = Ok (v, rest) /\ evals tlt vmatch g q ex v) \/
    (exists e, (let? out := query_exec ops s q [] in pop out) = Err e /\ fails tlt vmatch g q e) \/
    ((let? out := query_exec ops s q [] in pop out) = Panic /\ hits_bad q).
  Proof.
    intros Hix.
    destruct (query_exec_ok q [] Hix) as [(ex & v & E & Hev)|[(e & E & Hf)|(E & Hb)]]; rewrite E; cbn.
    - left. exists ex, v. eauto.
    - right; left. eauto.
    - right; right. eauto.
  Qed.
End Agree.
