(** * Every call on the in-memory datastore refines the specification. *)
From Verif Require Import Base OMap Json Types Util Db Mem Spec QueryFacts SpecFacts JsonFacts UtilFacts MemFacts.

Set Implicit Arguments.

(** When a stored value answers a value query: same hash input and equal. *)
Definition vm (x v : json) : Prop := key_eq x v = true.

Lemma lt_edge e f : lt e f <-> elt lt e f.
Proof.
  change (lt e f) with (lt (edge_tup e) (edge_tup f)). unfold edge_tup, elt. rewrite !lt_pair. tauto.
Qed.

Lemma sorted_iff {A} (R Q : A -> A -> Prop) l : (forall x y, R x y -> Q x y) -> StronglySorted R l -> StronglySorted Q l.
Proof.
  intros H. induction 1 as [|a l Hs IH Hf]; constructor; auto. eapply Forall_impl; [|exact Hf]. auto.
Qed.

(** The index of [n] says exactly which properties are stored. *)
Definition ix_exact (m : memory) (n : ident) : Prop := forall c, get n (m_index m) = Some c ->
  c_ok c /\
  (forall v mb, c_has c v mb = true <-> exists x, mprop m mb n = Some x /\ vm x v) /\
  (forall e x, get (e, n) (m_eprops m) = Some x -> mem e (m_edges m) = true).

Lemma exact_of_inv m n : cok m -> sound m -> complete m -> no_orphans (gof m) -> ix_exact m n.
Proof.
  intros K S C NO c Hc. conj.
  - eauto.
  - intros v mb. split.
    + intros H. eapply S; eauto.
    + intros (x & Hx & Hk). unfold vm in Hk. rewrite <- (c_has_equiv _ _ c mb Hk). eauto.
  - intros e x H. eapply (no_eorphan NO); eauto.
Qed.

Section Reads.
  Variable dbg : bool.
  Variable ord : order.
  Variable m : memory.
  Hypothesis M : mirror m.

  Let ops := mem_ops dbg ord.

  Lemma to_set_NoDup {A} {O : Ord A} (l : list A) : NoDup (to_set l).
  Proof. apply keys_NoDup. Qed.
  Lemma to_set_In {A} {O : Ord A} (l : list A) x : In x (to_set l) <-> In x l.
  Proof.
    unfold to_set. rewrite keys_In, mem_fold_add. cbn. rewrite orb_false_r. apply inb_In.
  Qed.

  Lemma map_elems_vertices l (P : vertex -> Prop) :
    StronglySorted (klt (V := ident)) l ->
    (forall k t, In (k, t) l <-> P (Vertex k t)) ->
    listing vlt P (map (fun kv => Vertex (fst kv) (snd kv)) l).
  Proof.
    intros Hs H. split.
    - eapply sorted_map; [|exact Hs]. intros [k t] [k' t']. cbn. auto.
    - intros [k t]. rewrite in_map_iff. split.
      + intros ([k' t'] & E & Hin). inversion E; subst. now apply H.
      + intros Hp. exists (k, t). split; [reflexivity|]. now apply H.
  Qed.

  Lemma edge_keys_listing l (P : edge -> Prop) :
    StronglySorted (klt (V := unit)) l ->
    (forall k, In (k, tt) l <-> P k) ->
    listing (elt lt) P (map fst l).
  Proof.
    intros Hs H. split.
    - eapply sorted_map; [|exact Hs]. intros [k t] [k' t']. unfold klt. cbn. apply lt_edge.
    - intros k. rewrite in_map_iff. split.
      + intros ([k' []] & <- & Hin). now apply H.
      + intros Hp. exists (k, tt). split; [reflexivity|]. now apply H.
  Qed.

  Lemma props_listing {A} {O : Ord A} (o : A) (t : omap (A * ident) json) l :
    StronglySorted (klt (V := json)) l ->
    (forall kv, In kv l <-> fst (fst kv) = o /\ get (fst kv) t = Some (snd kv)) ->
    listing (fun a b => lt (fst a) (fst b)) (fun a : ident * json => get (o, fst a) t = Some (snd a))
            (map (fun kv => (snd (fst kv), snd kv)) l).
  Proof.
    intros Hs H. split.
    - revert H. induction Hs as [|[[o1 n1] v1] l Hs IH Hf]; intros H; cbn [map fst snd]; constructor.
      + assert (forall l : list (A * ident * json), StronglySorted (klt (V := json)) l ->
                 (forall kv, In kv l -> fst (fst kv) = o) ->
                 StronglySorted (fun a b : ident * json => lt (fst a) (fst b)) (map (fun kv => (snd (fst kv), snd kv)) l)) as L.
        { clear. induction 1 as [|[[o1 n1] v1] l Hs IH Hf]; intros H; cbn [map fst snd]; constructor; auto.
          - apply IH. intros kv Hk. apply H. now right.
          - rewrite Forall_forall in *. intros y Hy. apply in_map_iff in Hy as ([[o2 n2] v2] & <- & Hy). cbn [fst snd].
            pose proof (H _ (or_introl eq_refl)) as E1. pose proof (H _ (or_intror Hy)) as E2. cbn in E1, E2. subst.
            apply Hf in Hy. unfold klt in Hy. cbn in Hy. apply lt_pair in Hy as [Hy|[_ Hy]]; [now apply lt_irrefl in Hy|assumption]. }
        apply L; auto. intros kv Hk. apply (H kv). now right.
      + rewrite Forall_forall in *. intros y Hy. apply in_map_iff in Hy as ([[o2 n2] v2] & <- & Hy). cbn [fst snd].
        destruct (proj1 (H _) (or_introl eq_refl)) as [E1 _]. destruct (proj1 (H _) (or_intror Hy)) as [E2 _].
        cbn in E1, E2. subst. apply Hf in Hy. unfold klt in Hy. cbn in Hy.
        apply lt_pair in Hy as [Hy|[_ Hy]]; [now apply lt_irrefl in Hy|assumption].
    - intros [n x]. rewrite in_map_iff. cbn [fst snd]. split.
      + intros ([[o' n'] x'] & E & Hin). cbn in E. inversion E; subst. apply H in Hin as [<- Hg]. assumption.
      + intros Hg. exists ((o, n), x). split; [reflexivity|]. apply H. auto.
  Qed.

  Lemma mem_reads_ok : reads_ok ops m (gof m) lt vm (ix_exact m) is_max.
  Proof.
    assert (listing vlt (is_vertex (gof m)) (map (fun kv => Vertex (fst kv) (snd kv)) (elems (m_vertices m)))) as LV.
    { apply map_elems_vertices; [apply elems_ssorted|]. intros k t. unfold is_vertex. cbn. symmetry. apply get_In. }
    assert (listing (elt lt) (is_edge (gof m)) (map fst (elems (m_edges m)))) as LE.
    { apply edge_keys_listing; [apply elems_ssorted|]. intros k. unfold is_edge. cbn. rewrite <- get_In. apply get_oset. }
    split.
    - eexists. split; [|exact LV]. unfold yields. cbn. unfold mem_all_vertices. now rewrite map_map.
    - eexists. split; [|exact LV]. cbn. unfold mem_vertex_count, size, lenN. now rewrite map_length.
    - intros id. exists (map (fun kv => Vertex (fst kv) (snd kv)) (from id (m_vertices m))). split.
      + unfold yields. cbn. unfold mem_range_vertices. now rewrite map_map.
      + apply map_elems_vertices; [apply from_sorted|]. intros k t. unfold is_vertex. cbn. apply from_In.
    - intros ids. unfold yields. cbn. unfold mem_specific_vertices. f_equal.
      induction ids as [|id ids IH]; cbn; [reflexivity|]. unfold found at 1. cbn.
      destruct (get id (m_vertices m)); cbn; now rewrite IH.
    - eexists. split; [|exact LE]. reflexivity.
    - eexists. split; [|exact LE]. cbn. unfold mem_edge_count, size, lenN. now rewrite map_length.
    - intros lo. exists (map fst (from lo (m_edges m))). split.
      + unfold yields. cbn. unfold mem_range_edges. now rewrite map_map.
      + apply edge_keys_listing; [apply from_sorted|]. intros k. rewrite from_In, get_oset, <- lt_edge. reflexivity.
    - intros lo. exists (map fst (from lo (m_reversed m))). split.
      + unfold yields. cbn. unfold mem_range_reversed_edges. now rewrite map_map.
      + apply edge_keys_listing; [apply from_sorted|]. intros k. rewrite from_In, get_oset, <- lt_edge, M. reflexivity.
    - intros es. eexists. split; [reflexivity|]. apply keeps_filter. reflexivity.
    - intros n. unfold lookup. cbn. unfold mem_vertex_ids_with_property, indexed. cbn [gof gix]. rewrite mem_dom.
      destruct (get n (m_index m)) as [c|] eqn:E; cbn.
      + right. eexists. split; [reflexivity|]. split; [apply mem_get; eauto|]. intros X.
        destruct (X c E) as (Ko & Kh & _).
        pose proof (ord_v_perm ord (to_set (flat_map (fun kv => filter_map member_vertex (keys (snd kv))) c))) as P.
        split.
        * eapply Permutation_NoDup; [exact P|]. apply to_set_NoDup.
        * intros v Hv. unfold has, vprop_fn. cbn.
          assert (In (vid v) (ord_v ord (to_set (flat_map (fun kv => filter_map member_vertex (keys (snd kv))) c))) <->
                  exists w, c_has c w (MVertex (vid v)) = true) as ->.
          { rewrite <- c_any by assumption. split.
            - intros H. apply Permutation_sym in P. eapply Permutation_in in H; [|exact P]. rewrite to_set_In in H.
              apply in_flat_map in H as (kv & Hk & H). apply in_filter_map in H as (mb & Hmb & H).
              destruct mb; inversion H; subst. apply keys_In in Hmb. eauto.
            - intros (kv & Hk & H). eapply Permutation_in; [exact P|]. rewrite to_set_In. apply in_flat_map.
              exists kv. split; [assumption|]. apply in_filter_map. exists (MVertex (vid v)). split; [|reflexivity].
              now apply keys_In. }
          split.
          -- intros (w & H). apply Kh in H as (x & Hx & _). cbn in Hx. eauto.
          -- intros (x & Hx). exists x. apply Kh. exists x. split; [exact Hx|]. apply key_eq_refl.
      + left. split; [reflexivity|]. rewrite mem_get. intros (x & Hx). congruence.
    - intros n x. unfold lookup. cbn. unfold mem_vertex_ids_with_property_value, indexed. cbn [gof gix]. rewrite mem_dom.
      destruct (get n (m_index m)) as [c|] eqn:E; cbn.
      + right. destruct (c_get x c) as [ms|] eqn:G.
        * exists (ord_v ord (filter_map member_vertex (keys ms))). split; [reflexivity|]. split; [apply mem_get; eauto|].
          intros X. destruct (X c E) as (Ko & Kh & _).
          pose proof (ord_v_perm ord (filter_map member_vertex (keys ms))) as P. split.
          -- eapply Permutation_NoDup; [exact P|].
             assert (NoDup (keys ms)) as N by apply keys_NoDup. clear -N.
             induction N as [|[i|e] l Hn N IH]; cbn; [constructor| |assumption].
             constructor; [|assumption]. rewrite in_filter_map. intros ([j|f] & Hj & H); inversion H; subst. auto.
          -- intros v Hv. unfold has_value, vprop_fn. cbn.
             rewrite <- (Kh x (MVertex (vid v))). unfold c_has. rewrite G. split.
             ++ intros H. apply Permutation_sym in P. eapply Permutation_in in H; [|exact P].
                apply in_filter_map in H as ([j|f] & Hj & H); inversion H; subst. now apply keys_In.
             ++ intros H. eapply Permutation_in; [exact P|]. apply in_filter_map. exists (MVertex (vid v)).
                split; [now apply keys_In|reflexivity].
        * exists []. split; [reflexivity|]. split; [apply mem_get; eauto|]. intros X. destruct (X c E) as (Ko & Kh & _).
          split; [constructor|]. intros v Hv. unfold has_value, vprop_fn. cbn.
          rewrite <- (Kh x (MVertex (vid v))). unfold c_has. rewrite G. split; [tauto|discriminate].
      + left. split; [reflexivity|]. rewrite mem_get. intros (y & Hx). congruence.
    - intros n. unfold lookup. cbn. unfold mem_edges_with_property, indexed. cbn [gof gix]. rewrite mem_dom.
      destruct (get n (m_index m)) as [c|] eqn:E; cbn.
      + right. eexists. split; [reflexivity|]. split; [apply mem_get; eauto|]. intros X.
        destruct (X c E) as (Ko & Kh & Ke).
        pose proof (ord_e_perm ord (to_set (flat_map (fun kv => filter_map member_edge (keys (snd kv))) c))) as P.
        split.
        * eapply Permutation_NoDup; [exact P|]. apply to_set_NoDup.
        * intros e. unfold has, eprop_fn. cbn.
          assert (In e (ord_e ord (to_set (flat_map (fun kv => filter_map member_edge (keys (snd kv))) c))) <->
                  exists w, c_has c w (MEdge e) = true) as ->.
          { rewrite <- c_any by assumption. split.
            - intros H. apply Permutation_sym in P. eapply Permutation_in in H; [|exact P]. rewrite to_set_In in H.
              apply in_flat_map in H as (kv & Hk & H). apply in_filter_map in H as (mb & Hmb & H).
              destruct mb; inversion H; subst. apply keys_In in Hmb. eauto.
            - intros (kv & Hk & H). eapply Permutation_in; [exact P|]. rewrite to_set_In. apply in_flat_map.
              exists kv. split; [assumption|]. apply in_filter_map. exists (MEdge e). split; [|reflexivity].
              now apply keys_In. }
          split.
          -- intros (w & H). apply Kh in H as (x & Hx & _). cbn in Hx. split; [|eauto]. unfold is_edge. cbn. eauto.
          -- intros [_ (x & Hx)]. exists x. apply Kh. exists x. split; [exact Hx|]. apply key_eq_refl.
      + left. split; [reflexivity|]. rewrite mem_get. intros (x & Hx). congruence.
    - intros n x. unfold lookup. cbn. unfold mem_edges_with_property_value, indexed. cbn [gof gix]. rewrite mem_dom.
      destruct (get n (m_index m)) as [c|] eqn:E; cbn.
      + right. destruct (c_get x c) as [ms|] eqn:G.
        * exists (ord_e ord (filter (fun e => mem e (m_edges m)) (filter_map member_edge (keys ms)))).
          split; [reflexivity|]. split; [apply mem_get; eauto|].
          intros X. destruct (X c E) as (Ko & Kh & Ke).
          pose proof (ord_e_perm ord (filter (fun e => mem e (m_edges m)) (filter_map member_edge (keys ms)))) as P. split.
          -- eapply Permutation_NoDup; [exact P|]. apply NoDup_filter.
             assert (NoDup (keys ms)) as N by apply keys_NoDup. clear -N.
             induction N as [|[i|e] l Hn N IH]; cbn; [constructor|assumption|].
             constructor; [|assumption]. rewrite in_filter_map. intros ([j|f] & Hj & H); inversion H; subst. auto.
          -- intros e. unfold has_value, eprop_fn. cbn.
             rewrite <- (Kh x (MEdge e)). unfold c_has. rewrite G. split.
             ++ intros H. apply Permutation_sym in P. eapply Permutation_in in H; [|exact P].
                apply filter_In in H as [H He].
                apply in_filter_map in H as ([j|f] & Hj & H); inversion H; subst. split; [exact He|]. now apply keys_In.
             ++ intros [He H]. eapply Permutation_in; [exact P|]. apply filter_In. split; [|exact He].
                apply in_filter_map. exists (MEdge e). split; [now apply keys_In|reflexivity].
        * exists []. split; [reflexivity|]. split; [apply mem_get; eauto|]. intros X. destruct (X c E) as (Ko & Kh & _).
          split; [constructor|]. intros e. unfold has_value, eprop_fn. cbn.
          rewrite <- (Kh x (MEdge e)). unfold c_has. rewrite G. split; [tauto|intros [_ H]; discriminate].
      + left. split; [reflexivity|]. rewrite mem_get. intros (y & Hx). congruence.
    - reflexivity.
    - intros v Hb. cbn. unfold mem_all_vertex_properties.
      destruct (next_uuid_total (vid v)) as [[nx Hn]|Hn].
      2:{ exfalso. apply Hb. now apply next_uuid_max. }
      rewrite Hn. set (l := take_while _ _).
      exists (map (fun kv => (snd (fst kv), snd kv)) l). split; [unfold yields; now rewrite map_map|].
      unfold vprop_fn. cbn [gof gvp].
      apply (@props_listing uuid _ (vid v) (m_vprops m)).
      + apply take_while_sorted, from_sorted.
      + intros [[o n] x]. cbn [fst snd]. unfold l.
        assert (forall o' n', ltb (o', n') (nx, empty_ident) = true <-> o' = vid v \/ lt o' (vid v)) as LT.
        { intros o' n'. rewrite ltb_lt, lt_pair. rewrite (below_next _ _ Hn). split.
          - intros [H|[_ H]]; [assumption|now apply ident_empty_min in H].
          - auto. }
        rewrite (take_while_is_filter (R := klt (V := json))).
        * rewrite filter_In, from_In. cbn [fst]. rewrite LT, lt_pair. split.
          -- intros [[Hg Hl] [->|Ho]]; [auto|]. exfalso. apply Hl. auto.
          -- intros [-> Hg]. repeat split; auto. intros [H|[_ H]]; [now apply lt_irrefl in H|now apply ident_empty_min in H].
        * apply from_sorted.
        * intros [[o1 n1] x1] [[o2 n2] x2] _ _ Hk. cbn [fst]. rewrite !LT. unfold klt in Hk. cbn [fst] in Hk.
          apply lt_pair in Hk as [Hk|[-> _]]; [|auto]. intros [->|H]; [auto|]. right. eapply lt_trans; eauto.
    - intros v Hb. cbn. unfold mem_all_vertex_properties. apply next_uuid_max in Hb. now rewrite Hb.
    - intros u. destruct (next_uuid_total u) as [[nx Hn]|Hn]; [right|left; now apply next_uuid_max].
      intros H. apply next_uuid_max in H. congruence.
    - reflexivity.
    - intros e. cbn. unfold mem_all_edge_properties. set (l := take_while _ _).
      exists (map (fun kv => (snd (fst kv), snd kv)) l). split; [unfold yields; now rewrite map_map|].
      unfold eprop_fn. cbn [gof gep].
      apply (@props_listing edge _ e (m_eprops m)).
      + apply take_while_sorted, from_sorted.
      + intros kv. apply owner_range.
  Qed.
End Reads.

(** ** All calls *)

Definition op_query (o : op) : option query :=
  match o with OGet q | ODelete q | OSetProperties q _ _ => Some q | _ => None end.

Record weak_inv (m : memory) : Prop := { wi_cok : cok m; wi_mirror : mirror m }.

Section Exec.
  Variable dbg : bool.
  Variable ord : order.

  (** What a call does to the graph and the invariants, whatever the state of
      the index. *)
  Definition kept (m : memory) (r : outcome res) (m' : memory) : Prop :=
    (cok m -> cok m') /\
    (no_orphans (gof m) -> complete m -> complete m') /\
    (dbg = true -> sound m -> sound m') /\
    (mirror m -> mirror m').

  Lemma kept_refl m r : kept m r m.
  Proof. unfold kept. conj; auto. Qed.

  Lemma kept_steps m x g' : steps dbg m x g' -> fst x = Ok tt -> gof (snd x) = g' /\ forall r, kept m r (snd x).
  Proof.
    intros [(O & C & K) M] E. destruct (K E) as (G & K1 & K2 & K3). split; [assumption|].
    intros r. unfold kept. conj; auto.
  Qed.

  Lemma kept_ret m m' g' : steps dbg m (Ok tt, m') g' -> gof m' = g' /\ forall r, kept m r m'.
  Proof. intros H. apply (kept_steps H). reflexivity. Qed.

  Ltac unit_step H :=
    match type of H with steps _ ?m ?x ?g' =>
      let r := fresh "r" in let m2 := fresh "m2" in
      destruct x as [r m2] eqn:?; 
      let O := fresh in let C := fresh in
      pose proof H as [(O & C & _) _]; cbn [fst snd] in O, C;
      destruct O as [->|[-> ?]]
    end.

  Theorem mem_exec_change m o r m' :
    exec (mem_ops dbg ord) m o = (r, m') -> r <> Panic -> change (gof m) (gof m') /\ kept m r m'.
  Proof.
    assert (forall (x : outcome unit * memory) g', steps dbg m x g' -> change (gof m) g' ->
             resw (fun _ => RUnit) x = (r, m') -> r <> Panic -> change (gof m) (gof m') /\ kept m r m') as U.
    { intros [r1 m1] g' H HC E N. pose proof H as [(O & _) _]. cbn [fst] in O. destruct O as [->|[-> _]].
      - inversion E; subst. destruct (kept_ret H) as [-> K]. auto.
      - inversion E; subst. now elim N. }
    destruct o; cbn [exec]; intros E N.
    - destruct (create_vertex_spec dbg m v) as [Ev H]. destruct (kept_ret H) as [G K].
      cbn in E. inversion E; subst. rewrite G. split; [constructor|apply K].
    - destruct (create_vertex_spec dbg m (Vertex id t)) as [Ev H]. destruct (kept_ret H) as [G K].
      unfold db_create_vertex_from_type in E. cbn in E.
      destruct (mem_create_vertex m (Vertex id t)) as [r1 m1]. cbn in Ev. subst r1. cbn [sbind snd] in *.
      destruct (negb (mem id (m_vertices m))); inversion E; subst; rewrite G; (split; [constructor|apply K]).
    - destruct (create_edge_spec dbg m e) as [Ev H]. destruct (kept_ret H) as [G K].
      cbn in E. inversion E; subst. rewrite G. split; [constructor|apply K].
    - inversion E; subst. split; [constructor|apply kept_refl].
    - unfold db_delete in E.
      destruct (let? out := query_exec (mem_ops dbg ord) m q [] in pop out) as [[[l|l|l|l|l] rest]|e|]; cbn in E.
      + eapply U; [apply delete_vertices_spec|constructor|exact E|exact N].
      + eapply U; [apply delete_edges_spec|constructor|exact E|exact N].
      + inversion E; subst. split; [constructor|apply kept_refl].
      + eapply U; [apply steps_delete_vprops|constructor|exact E|exact N].
      + eapply U; [apply steps_delete_eprops|constructor|exact E|exact N].
      + inversion E; subst. split; [constructor|apply kept_refl].
      + inversion E; subst. now elim N.
    - unfold db_set_properties in E.
      destruct (let? out := query_exec (mem_ops dbg ord) m q [] in pop out) as [[[l|l|l|l|l] rest]|e|]; cbn in E.
      + eapply U; [apply set_vprops_spec|constructor|exact E|exact N].
      + eapply U; [apply set_eprops_spec|constructor|exact E|exact N].
      + inversion E; subst. split; [constructor|apply kept_refl].
      + inversion E; subst. split; [constructor|apply kept_refl].
      + inversion E; subst. split; [constructor|apply kept_refl].
      + inversion E; subst. split; [constructor|apply kept_refl].
      + inversion E; subst. now elim N.
    - eapply U; [apply bulk_spec|constructor|exact E|exact N].
    - destruct (index_property_spec m name) as (E1 & G & K1 & K2 & K3 & K4).
      cbn in E. inversion E; subst. change (snd (mem_index_property m name)) with (snd (mem_index_property m name)) in *.
      split; [|unfold kept; conj; auto].
      match goal with |- change _ (gof ?x) => change x with (snd (mem_index_property m name)) end.
      rewrite G. constructor.
    - inversion E; subst. split; [constructor|apply kept_refl].
    - eapply U; [apply delete_vertices_spec|constructor|exact E|exact N].
    - eapply U; [apply delete_edges_spec|constructor|exact E|exact N].
    - eapply U; [apply steps_delete_vprops|constructor|exact E|exact N].
    - eapply U; [apply steps_delete_eprops|constructor|exact E|exact N].
    - eapply U; [apply set_vprops_spec|constructor|exact E|exact N].
    - eapply U; [apply set_eprops_spec|constructor|exact E|exact N].
  Qed.

  (** With a trustworthy index for the names a query consults, a call does
      what the specification says. *)
  Theorem mem_exec_spec m o r m' :
    mirror m ->
    (forall q n, op_query o = Some q -> In n (index_names q) -> indexed (gof m) n -> ix_exact m n) ->
    exec (mem_ops dbg ord) m o = (r, m') ->
    spec_step lt vm (gof m) o r (gof m') \/
    r = Panic /\ dbg = true /\ ~ complete m \/
    r = Panic /\ exists q, op_query o = Some q /\ hits_bad (gof m) lt vm is_max q.
  Proof.
    intros M X.
    pose proof (mem_reads_ok dbg ord M) as RO.
    assert (forall (x : outcome unit * memory) g', steps dbg m x g' -> spec_step lt vm (gof m) o (Ok RUnit) g' ->
             resw (fun _ => RUnit) x = (r, m') ->
             spec_step lt vm (gof m) o r (gof m') \/ r = Panic /\ dbg = true /\ ~ complete m \/
             r = Panic /\ exists q, op_query o = Some q /\ hits_bad (gof m) lt vm is_max q) as U.
    { intros [r1 m1] g' H HC E. pose proof H as [(O & C & _) _]. cbn [fst] in O, C. destruct O as [->|[-> D]].
      - inversion E; subst. destruct (kept_ret H) as [-> K]. auto.
      - inversion E; subst. right; left. conj; auto. intros HC'. apply C in HC'. discriminate. }
    destruct o; cbn [exec]; intros E; cbn [op_query] in X.
    - destruct (create_vertex_spec dbg m v) as [Ev H]. destruct (kept_ret H) as [G K].
      cbn in E. inversion E; subst. rewrite Ev, G. left. cbn. apply (sp_create_vertex lt vm (gof m) v).
    - destruct (create_vertex_spec dbg m (Vertex id t)) as [Ev H]. destruct (kept_ret H) as [G K].
      unfold db_create_vertex_from_type in E. cbn in E.
      destruct (mem_create_vertex m (Vertex id t)) as [r1 m1]. cbn in Ev. subst r1. cbn [sbind snd] in *. left.
      destruct (mem id (m_vertices m)) eqn:F; cbn in E; inversion E; subst; rewrite G.
      + unfold g_create_vertex. cbn. rewrite F. now constructor.
      + now constructor.
    - destruct (create_edge_spec dbg m e) as [Ev H]. destruct (kept_ret H) as [G K].
      cbn in E. inversion E; subst. rewrite Ev, G. left. cbn. apply (sp_create_edge lt vm (gof m) e).
    - inversion E; subst.
      destruct (db_get_ok lex_order RO q) as [(ex & v & -> & Hv)|[(e & -> & Hf)|(-> & Hb)]]; [eauto| | |]; cbn.
      + left. now constructor.
      + left. now constructor.
      + right; right. eauto.
    - unfold db_delete in E.
      destruct (query_value lex_order RO q) as [(ex & v & rest & Eq & Hv)|[(e & Eq & Hf)|(Eq & Hb)]]; [eauto| | |];
        rewrite Eq in E.
      + destruct v as [l|l|l|l|l]; cbn in E.
        * eapply U; [apply delete_vertices_spec|eapply sp_delete_vertices; eauto|exact E].
        * eapply U; [apply delete_edges_spec|eapply sp_delete_edges; eauto|exact E].
        * inversion E; subst. left. eapply sp_delete_count; eauto.
        * eapply U; [apply steps_delete_vprops|eapply sp_delete_vprops; eauto|exact E].
        * eapply U; [apply steps_delete_eprops|eapply sp_delete_eprops; eauto|exact E].
      + inversion E; subst. left. now constructor.
      + inversion E; subst. right; right. split; [reflexivity|]. exists q. auto.
    - unfold db_set_properties in E.
      destruct (query_value lex_order RO q) as [(ex & v & rest & Eq & Hv)|[(e & Eq & Hf)|(Eq & Hb)]]; [eauto| | |];
        rewrite Eq in E.
      + destruct v as [l|l|l|l|l]; cbn in E.
        * eapply U; [apply set_vprops_spec|eapply sp_set_vertices; eauto|exact E].
        * eapply U; [apply set_eprops_spec|eapply sp_set_edges; eauto|exact E].
        * inversion E; subst. left. eapply sp_set_kind; eauto.
        * inversion E; subst. left. eapply sp_set_kind; eauto.
        * inversion E; subst. left. eapply sp_set_kind; eauto.
      + inversion E; subst. left. now constructor.
      + inversion E; subst. right; right. split; [reflexivity|]. exists q. auto.
    - eapply U; [apply bulk_spec|constructor|exact E].
    - destruct (index_property_spec m name) as (E1 & G & _).
      cbn in E. inversion E; subst. left.
      match goal with |- spec_step _ _ _ _ _ (gof ?x) => change x with (snd (mem_index_property m name)) end.
      rewrite G. constructor.
    - inversion E; subst. left. constructor.
    - eapply U; [apply delete_vertices_spec|constructor|exact E].
    - eapply U; [apply delete_edges_spec|constructor|exact E].
    - eapply U; [apply steps_delete_vprops|constructor|exact E].
    - eapply U; [apply steps_delete_eprops|constructor|exact E].
    - eapply U; [apply set_vprops_spec|constructor|exact E].
    - eapply U; [apply set_eprops_spec|constructor|exact E].
  Qed.
End Exec.
