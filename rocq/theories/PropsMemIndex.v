(** * Properties of the in-memory database that involve property indexes.

    The guarantees are about debug builds and calls that only write properties
    of existing elements; the refutations show what happens otherwise. *)
From Verif Require Import Base OMap Json Types Util Db Mem Rdb Spec QueryFacts SpecFacts QueryTrust JsonFacts UtilFacts
  MemFacts MemRefine MemHist RdbSpec RdbHist Stages Effects Claims PropsMem Examples.

Set Implicit Arguments.

(** Calls that write properties only through [set_properties], that is, of
    elements a query returned. *)
Definition api_op (o : op) : bool :=
  match o with
  | OBulkInsert _ | TSetVertexProperties _ _ _ | TSetEdgeProperties _ _ _ => false
  | _ => true
  end.
Lemma api_tidy dbg h : forallb (fun x => api_op (snd x)) h = true -> tidy_history dbg h.
Proof.
  intros H h1 x h2 m -> _. rewrite forallb_app in H. apply andb_true_iff in H as [_ H]. cbn in H.
  apply andb_true_iff in H as [H _]. destruct (snd x); cbn in *; auto; discriminate.
Qed.

(** ** Debug builds *)
Section Debug.
  Variable h : list (order * op).
  Variable m : memory.
  Hypothesis Run : mem_run true h = Some m.
  Hypothesis Tidy : tidy_history true h.
  Variable ord : order.
  Notation ops := (mem_ops true ord).
  Notation g := (gof m).

  Lemma tidy_exact n : ix_exact m n.
  Proof.
    destruct (run_tidy Tidy Run) as (C & NO). destruct (run_weak true h Run) as (K & M & EP & SO).
    now apply exact_of_inv; auto.
  Qed.

  (** C08: every query, including index lookups. *)
  Theorem C08_mem_query_indexed q :
    (exists ex v, db_get ops m q = Ok (ex ++ [v]) /\ evals lt vm g q ex v) \/
    (exists e, db_get ops m q = Err e /\ fails lt vm g q e) \/
    (db_get ops m q = Panic /\ hits_bad g lt vm is_max q).
  Proof. apply (db_get_ok lex_order (run_reads true h Run ord)). intros n _ _. apply tidy_exact. Qed.

  (** C08, C26: every call does what the specification of the call says. *)
  Theorem C08_mem_call o r st' :
    mem_step true (Some m) (ord, o) = (r, st') ->
    (exists m', st' = Some m' /\ spec_step lt vm g o r (gof m')) \/
    (r = Panic /\ st' = None /\ exists q, op_query o = Some q /\ hits_bad g lt vm is_max q).
  Proof. now apply (tidy_step ord o Tidy Run). Qed.

  Lemma leaf_get q l (P : outv -> Prop) : inner_of q = None ->
    indexed_by (map snd h) l -> index_of q = Some l ->
    (forall ex v, evals lt vm g q ex v -> ex = [] /\ P v) ->
    exists v, db_get ops m q = Ok [v] /\ P v.
  Proof.
    intros L I IO HP. apply (C16_mem_indexed_aux true h Run l) in I.
    destruct (C08_mem_query_indexed q) as [(ex & v & E & V)|[(e & E & F)|(E & B)]].
    - destruct (HP ex v V) as [-> Pv]. eauto.
    - exfalso. inversion F; subst; congruence.
    - exfalso. inversion B; subst; cbn in L; congruence.
  Qed.

  (** C14 *)
  Theorem C14_mem_debug_vertex_presence_partial n : indexed_by (map snd h) n ->
    exists l, db_get ops m (QVertexWithPropertyPresence n) = Ok [Vertices l] /\ NoDup l /\
      forall v, In v l <-> is_vertex g v /\ exists x, get (vid v, n) (gvp g) = Some x.
  Proof.
    intros I. destruct (@leaf_get (QVertexWithPropertyPresence n) n (fun v => exists l, v = Vertices l /\ NoDup l /\
      forall v, In v l <-> is_vertex g v /\ exists x, get (vid v, n) (gvp g) = Some x)) as (v & E & l & -> & Pl); auto.
    - intros ex v V. inversion V; subst. split; [reflexivity|]. eauto.
    - eauto.
  Qed.

  Theorem C14_mem_debug_vertex_value_partial n x : indexed_by (map snd h) n ->
    exists l, db_get ops m (QVertexWithPropertyValue n x) = Ok [Vertices l] /\ NoDup l /\
      forall v, In v l <-> is_vertex g v /\ exists y, get (vid v, n) (gvp g) = Some y /\ key_eq y x = true.
  Proof.
    intros I. destruct (@leaf_get (QVertexWithPropertyValue n x) n (fun v => exists l, v = Vertices l /\ NoDup l /\
      forall v, In v l <-> is_vertex g v /\ exists y, get (vid v, n) (gvp g) = Some y /\ key_eq y x = true)) as (v & E & l & -> & Pl); auto.
    - intros ex v V. inversion V; subst. split; [reflexivity|]. eauto.
    - eauto.
  Qed.

  Theorem C14_mem_debug_edge_presence_partial n : indexed_by (map snd h) n ->
    exists l, db_get ops m (QEdgeWithPropertyPresence n) = Ok [Edges l] /\ NoDup l /\
      forall e, In e l <-> is_edge g e /\ exists x, get (e, n) (gep g) = Some x.
  Proof.
    intros I. destruct (@leaf_get (QEdgeWithPropertyPresence n) n (fun v => exists l, v = Edges l /\ NoDup l /\
      forall e, In e l <-> is_edge g e /\ exists x, get (e, n) (gep g) = Some x)) as (v & E & l & -> & Pl); auto.
    - intros ex v V. inversion V; subst. split; [reflexivity|]. eauto.
    - eauto.
  Qed.

  Theorem C14_mem_debug_edge_value_partial n x : indexed_by (map snd h) n ->
    exists l, db_get ops m (QEdgeWithPropertyValue n x) = Ok [Edges l] /\ NoDup l /\
      forall e, In e l <-> is_edge g e /\ exists y, get (e, n) (gep g) = Some y /\ key_eq y x = true.
  Proof.
    intros I. destruct (@leaf_get (QEdgeWithPropertyValue n x) n (fun v => exists l, v = Edges l /\ NoDup l /\
      forall e, In e l <-> is_edge g e /\ exists y, get (e, n) (gep g) = Some y /\ key_eq y x = true)) as (v & E & l & -> & Pl); auto.
    - intros ex v V. inversion V; subst. split; [reflexivity|]. eauto.
    - eauto.
  Qed.

  (** C01 for every query, including edge presence lookups. *)
  Theorem C01_mem_debug_no_dangling q outs v e :
    db_get ops m q = Ok outs -> In v outs -> In e (edges_in v) ->
    is_edge g e /\ (exists t, get (eout e) (gv g) = Some t) /\ (exists t, get (ein e) (gv g) = Some t).
  Proof.
    intros E Hv He. destruct (run_weak true h Run) as (_ & M & EP & _).
    pose proof (query_trust lex_order (mem_reads_ok true ord M)) as QT.
    assert (trust ops m g is_max q True []) as T.
    { eapply (QT (fun q => match q with QEdgeWithPropertyPresence _ | QEdgeWithPropertyValue _ _ => True | _ => False end)).
      - intros n l _ E1. cbn in E1. unfold mem_edges_with_property in E1.
        destruct (C08_mem_query_indexed (QEdgeWithPropertyPresence n)) as [(ex & v' & Eq & V)|[(e' & Eq & F)|(Eq & B)]];
          unfold db_get in Eq; cbn [query_exec] in Eq; cbn in E1; cbn [t_edges_with_property mem_ops mem_edges_with_property] in Eq;
          unfold indexed_or_err in Eq; cbn in Eq; destruct (get n (m_index m)) as [c|]; try discriminate; cbn in Eq, E1;
          inversion E1 as [E2]; rewrite E2, collect_Ok in Eq; cbn in Eq; try discriminate.
        inversion V; subst. inversion Eq; subst. apply Forall_forall. intros e0 Hin. now apply H2 in Hin.
      - intros n x l _ E1. cbn in E1. unfold mem_edges_with_property_value in E1.
        destruct (get n (m_index m)) as [c|]; [|discriminate]. cbn in E1.
        destruct (c_get x c) as [ms|].
        + inversion E1 as [E2]. apply map_Ok_inj in E2. subst l. apply Forall_forall. intros e0 H0.
          eapply Permutation_in in H0; [|apply Permutation_sym, ord_e_perm]. apply filter_In in H0 as [_ H0]. exact H0.
        + inversion E1 as [E2]. destruct l; [constructor|discriminate].
      - intros _. destruct (leaf q); exact I. }
    pose proof (trust_outs true m ord q _ T E v Hv) as Gv.
    assert (is_edge g e) as Hg.
    { destruct v; cbn in He; try contradiction; cbn in Gv; specialize (Gv I); rewrite Forall_forall in Gv; auto.
      apply in_map_iff in He as (x & <- & Hx). auto. }
    split; [assumption|]. destruct (EP e Hg) as [E1 E2]. now rewrite !mem_get in *.
  Qed.

  (** C41, in debug builds and histories that never write properties of missing
      elements. *)
  Theorem C41_mem_debug_partial q outs v e :
    db_get ops m q = Ok outs -> In v outs -> In e (edges_in v) -> is_edge g e.
  Proof. intros E Hv He. now apply (C01_mem_debug_no_dangling q v e E Hv He). Qed.

  (** C17: with these calls the only panic is reading all properties of the
      vertex with the largest UUID. *)
  Theorem C17_mem_debug_no_panic_partial o m' : exec ops m o = (Panic, m') ->
    exists q, op_query o = Some q /\ reads_all q = true /\ exists v, is_vertex g v /\ is_max (vid v).
  Proof.
    intros E. destruct (run_tidy Tidy Run) as (C & _).
    destruct (C17_mem_panic_partial true h Run ord o E) as [[_ N]|H]; [contradiction|exact H].
  Qed.

  (** C39: indexing again changes no answer. *)
  Theorem C39_mem_debug_idempotent_partial n r m' : indexed_by (map snd h) n ->
    exec ops m (OIndexProperty n) = (r, m') ->
    r = Ok RUnit /\ gof m' = gof m /\
    forall q ord', (exists ex v, db_get (mem_ops true ord') m' q = Ok (ex ++ [v]) /\ evals lt vm g q ex v) \/
      (exists e, db_get (mem_ops true ord') m' q = Err e /\ fails lt vm g q e) \/
      (db_get (mem_ops true ord') m' q = Panic /\ hits_bad g lt vm is_max q).
  Proof.
    intros I E. assert (mem_step true (Some m) (ord, OIndexProperty n) = (r, Some m')) as ES.
    { unfold mem_step. cbn [fst snd]. rewrite E. cbn in E. inversion E; subst. reflexivity. }
    destruct (C08_mem_call _ ES) as [(m1 & Em & S)|(_ & Em & _)]; [|discriminate].
    inversion Em; subst m1. remember (gof m') as g' eqn:Eg. assert (r = Ok RUnit /\ g' = g_index_property g n) as [-> ->] by (inversion S; auto).
    clear S.
    apply (C16_mem_indexed_aux true h Run n) in I.
    assert (gof m' = gof m) as G.
    { rewrite <- Eg. unfold g_index_property, indexed in *. rewrite (RdbCrash.add_present _ _ I). now destruct (gof m). }
    split; [reflexivity|]. split; [now rewrite Eg|]. intros q ord'. rewrite <- G.
    assert (mem_run true (h ++ [(ord, OIndexProperty n)]) = Some m') as Run'.
    { rewrite mem_run_snoc, Run, ES. reflexivity. }
    assert (tidy_history true (h ++ [(ord, OIndexProperty n)])) as T'.
    { intros h1 x h2 m0 Eh R0. destruct h2 as [|y h2 _] using rev_ind.
      - apply app_inj_tail in Eh as [-> <-]. cbn. exact Logic.I.
      - rewrite app_comm_cons, app_assoc in Eh. apply app_inj_tail in Eh as [-> <-]. eapply Tidy; [reflexivity|exact R0]. }
    destruct (run_tidy T' Run') as (C & NO). destruct (run_weak true _ Run') as (K & M & EP & SO).
    apply (db_get_ok lex_order (run_reads true _ Run' ord')). intros n' _ _. now apply exact_of_inv; auto.
  Qed.
End Debug.

(** ** Release builds: lookups may return too much (see the refutations), but
    never too little. *)

(** Calls whose query does not start from an edge presence lookup. *)
Definition no_presence (o : op) : Prop :=
  forall q n, op_query o = Some q -> leaf q <> QEdgeWithPropertyPresence n.

Lemma no_orphans_request dbg ord m o :
  mirror m -> tidy_op (gof m) o -> no_presence o -> no_orphans (gof m) ->
  no_orphans (g_apply (gof m) (snd (request (mem_ops dbg ord) m (gof m) o))).
Proof.
  intros M T NP NO.
  assert (forall q, op_query o = Some q -> forall v, answer (mem_ops dbg ord) m q = Ok v -> good (gof m) True v) as GA.
  { intros q Hq v A. unfold answer in A. destruct (db_get (mem_ops dbg ord) m q) as [outs|e|] eqn:E; try discriminate.
    assert (trust (mem_ops dbg ord) m (gof m) is_max q True []) as TR.
    { apply mem_query_trust; [assumption|]. intros _. destruct (leaf q) eqn:L; try exact I. now elim (NP q name Hq). }
    pose proof TR as TR'. unfold trust in TR'. unfold db_get in E.
    destruct (query_exec (mem_ops dbg ord) m q []) as [out|e|] eqn:EQ; try discriminate.
    destruct TR' as (w & rest & -> & Gw & _). cbn in E. inversion E; subst. rewrite rev_app_distr in A. cbn in A.
    inversion A; subst. assumption. }
  destruct o; cbn [request op_query] in *;
    try (cbn [snd g_apply]; auto using no_orphans_create_vertex, no_orphans_create_edge, no_orphans_delete_vertices,
      no_orphans_delete_edges, no_orphans_delete_vprops, no_orphans_delete_eprops, no_orphans_bulk,
      no_orphans_set_vprops, no_orphans_set_eprops; fail).
  - destruct (mem id (gv (gof m))); cbn [snd g_apply]; auto using no_orphans_create_vertex.
  - destruct (answer _ m q) as [[]|e|]; cbn [snd g_apply]; auto using no_orphans_delete_vertices,
      no_orphans_delete_edges, no_orphans_delete_vprops, no_orphans_delete_eprops.
  - specialize (GA q eq_refl). destruct (answer _ m q) as [[]|e|]; cbn [snd g_apply]; auto.
    + apply no_orphans_set_vprops; [|assumption]. specialize (GA _ eq_refl). cbn in GA. rewrite Forall_forall in GA.
      intros id Hid. apply in_map_iff in Hid as (v & <- & Hv). apply GA in Hv. unfold is_vertex in Hv. apply mem_get. eauto.
    + apply no_orphans_set_eprops; [|assumption]. specialize (GA _ eq_refl). cbn in GA. specialize (GA I). rewrite Forall_forall in GA.
      intros e He. now apply GA in He.
  - cbn [snd g_apply]. destruct NO as [Hv He]. split; assumption.
Qed.

Lemma run_complete dbg h : forall m, tidy_history dbg h -> Forall (fun x => no_presence (snd x)) h ->
  mem_run dbg h = Some m -> complete m /\ no_orphans (gof m).
Proof.
  induction h as [|x h IH] using rev_ind; intros m T NP Hm.
  - cbn in Hm. inversion Hm; subst. split; [|rewrite gof_empty; apply no_orphans_empty].
    intros n c mb y H. cbn in H. rewrite get_empty in H. discriminate.
  - pose proof (T h x [] ) as Tx. apply Forall_app in NP as [NPh NPx]. apply Forall_inv in NPx.
    rewrite mem_run_snoc in Hm. apply mem_step_Some in Hm as (m0 & r & E0 & E & N & _).
    destruct (IH m0 (tidy_prefix T) NPh E0) as (C & NO). destruct (run_weak dbg h E0) as (K & M & EP & SO).
    destruct (@mem_exec_change dbg (fst x) m0 (snd x) r m E N) as (_ & _ & K2 & _).
    split; [auto|]. destruct (mem_effect dbg (fst x) (snd x) M E N) as [_ ->].
    apply no_orphans_request; auto.
Qed.

Section AnyBuild.
  Variable dbg : bool.
  Variable h : list (order * op).
  Variable m : memory.
  Hypothesis Run : mem_run dbg h = Some m.
  Hypothesis Tidy : tidy_history dbg h.
  Hypothesis NoPresence : Forall (fun x => no_presence (snd x)) h.
  Variable ord : order.
  Notation ops := (mem_ops dbg ord).
  Notation g := (gof m).

  Lemma indexed_container n : indexed_by (map snd h) n -> exists c, get n (m_index m) = Some c.
  Proof.
    intros I. apply (C16_mem_indexed_aux dbg h Run n) in I. unfold indexed in I. cbn in I. rewrite mem_dom in I.
    now apply mem_get in I.
  Qed.

  Lemma c_has_in c x mb : c_has c x mb = true ->
    (exists ms, c_get x c = Some ms /\ In mb (keys ms)) /\ exists kv, In kv c /\ In mb (keys (snd kv)).
  Proof.
    unfold c_has. destruct (c_get x c) as [ms|] eqn:E; [|discriminate]. intros H. apply keys_In in H. split; [eauto|].
    revert E. induction c as [|[k ms'] c IH]; [discriminate|]. cbn. destruct (key_eq k x).
    - intros X. inversion X; subst. eexists. split; [left; reflexivity|]. assumption.
    - intros X. destruct (IH X) as (kv & H1 & H2). eauto.
  Qed.

  Theorem C14_mem_vertex_presence_complete_partial n : indexed_by (map snd h) n ->
    exists l, db_get ops m (QVertexWithPropertyPresence n) = Ok [Vertices l] /\
      forall v x, is_vertex g v -> get (vid v, n) (gvp g) = Some x -> In v l.
  Proof.
    intros I. destruct (indexed_container _ I) as (c & Hc). destruct (run_complete Tidy NoPresence Run) as (C & _).
    unfold db_get. cbn [query_exec t_vertex_ids_with_property mem_ops]. unfold mem_vertex_ids_with_property. rewrite Hc.
    cbn [option_map indexed_or_err obind]. rewrite collect_Ok. cbn [obind].
    rewrite (ro_specific_vertices (run_reads dbg h Run ord)). cbn [obind]. rewrite collect_Ok. cbn. eexists. split; [reflexivity|].
    intros v x Hv Hx. apply in_found. split; [assumption|].
    eapply Permutation_in; [apply ord_v_perm|]. unfold to_set. 
    pose proof (C n c (MVertex (vid v)) x Hc Hx) as H. apply c_has_in in H as [_ (kv & H1 & H2)].
    apply to_set_In. apply in_flat_map. exists kv. split; [assumption|]. apply in_filter_map. eexists; split; [exact H2|reflexivity].
  Qed.

  Theorem C14_mem_vertex_value_complete_partial n x : indexed_by (map snd h) n ->
    exists l, db_get ops m (QVertexWithPropertyValue n x) = Ok [Vertices l] /\
      forall v y, is_vertex g v -> get (vid v, n) (gvp g) = Some y -> key_eq y x = true -> In v l.
  Proof.
    intros I. destruct (indexed_container _ I) as (c & Hc). destruct (run_complete Tidy NoPresence Run) as (C & _).
    unfold db_get. cbn [query_exec t_vertex_ids_with_property_value mem_ops]. unfold mem_vertex_ids_with_property_value. rewrite Hc.
    cbn [option_map indexed_or_err obind]. destruct (c_get x c) as [ms|] eqn:G.
    - rewrite collect_Ok. cbn [obind].
      rewrite (ro_specific_vertices (run_reads dbg h Run ord)). cbn [obind]. rewrite collect_Ok. cbn. eexists. split; [reflexivity|].
      intros v y Hv Hy Hk. apply in_found. split; [assumption|]. eapply Permutation_in; [apply ord_v_perm|].
      pose proof (C n c (MVertex (vid v)) y Hc Hy) as H. rewrite (c_has_equiv _ _ c _ Hk) in H.
      unfold c_has in H. rewrite G in H. apply keys_In in H. apply in_filter_map. eexists; split; [exact H|reflexivity].
    - cbn [collect obind]. rewrite (ro_specific_vertices (run_reads dbg h Run ord)). cbn [obind]. rewrite collect_Ok. cbn.
      eexists. split; [reflexivity|]. intros v y Hv Hy Hk.
      pose proof (C n c (MVertex (vid v)) y Hc Hy) as H. rewrite (c_has_equiv _ _ c _ Hk) in H.
      unfold c_has in H. rewrite G in H. discriminate.
  Qed.

  Theorem C14_mem_edge_presence_complete_partial n : indexed_by (map snd h) n ->
    exists l, db_get ops m (QEdgeWithPropertyPresence n) = Ok [Edges l] /\
      forall e x, get (e, n) (gep g) = Some x -> In e l.
  Proof.
    intros I. destruct (indexed_container _ I) as (c & Hc). destruct (run_complete Tidy NoPresence Run) as (C & _).
    unfold db_get. cbn [query_exec t_edges_with_property mem_ops]. unfold mem_edges_with_property. rewrite Hc.
    cbn [option_map indexed_or_err obind]. rewrite collect_Ok. cbn. eexists. split; [reflexivity|].
    intros e x Hx. eapply Permutation_in; [apply ord_e_perm|].
    pose proof (C n c (MEdge e) x Hc Hx) as H. apply c_has_in in H as [_ (kv & H1 & H2)].
    apply to_set_In. apply in_flat_map. exists kv. split; [assumption|]. apply in_filter_map. eexists; split; [exact H2|reflexivity].
  Qed.

  Theorem C14_mem_edge_value_complete_partial n x : indexed_by (map snd h) n ->
    exists l, db_get ops m (QEdgeWithPropertyValue n x) = Ok [Edges l] /\
      forall e y, get (e, n) (gep g) = Some y -> key_eq y x = true -> In e l.
  Proof.
    intros I. destruct (indexed_container _ I) as (c & Hc). destruct (run_complete Tidy NoPresence Run) as (C & NO).
    unfold db_get. cbn [query_exec t_edges_with_property_value mem_ops]. unfold mem_edges_with_property_value. rewrite Hc.
    cbn [option_map indexed_or_err obind]. destruct (c_get x c) as [ms|] eqn:G.
    - rewrite collect_Ok. cbn. eexists. split; [reflexivity|].
      intros e y Hy Hk. eapply Permutation_in; [apply ord_e_perm|].
      apply filter_In. split; [|exact (no_eorphan NO _ _ Hy)].
      pose proof (C n c (MEdge e) y Hc Hy) as H. rewrite (c_has_equiv _ _ c _ Hk) in H.
      unfold c_has in H. rewrite G in H. apply keys_In in H. apply in_filter_map. eexists; split; [exact H|reflexivity].
    - cbn. eexists. split; [reflexivity|]. intros e y Hy Hk.
      pose proof (C n c (MEdge e) y Hc Hy) as H. rewrite (c_has_equiv _ _ c _ Hk) in H.
      unfold c_has in H. rewrite G in H. discriminate.
  Qed.
End AnyBuild.

(** ** Concrete histories *)

(** Two people, one edge, an indexed property of both. *)
Definition h_people : list op :=
  [OCreateVertex v1; OCreateVertex v2; OCreateEdge e12; OIndexProperty n_name;
   OSetProperties (QSpecificVertex [u1]) n_name j_bob;
   OSetProperties (QSpecificEdge [e12]) n_name j_true].

Lemma run_with dbg h (P : memory -> Prop) :
  match mem_run dbg h with Some m => P m | None => False end -> exists m, mem_run dbg h = Some m /\ P m.
Proof. destruct (mem_run dbg h) as [m|]; [eauto|contradiction]. Qed.

Definition h_people_2 : list op :=
  h_people ++ [OSetProperties (QVertexWithPropertyValue n_name j_bob) n_name j_3; ODelete (q_vertex u2)].

(** The hypotheses of the debug section are met by a history that uses the
    index, overwrites and deletes. *)
Example people_debug :
  tidy_history true (calls h_people_2) /\ indexed_by h_people_2 n_name /\
  exists m, mem_run true (calls h_people_2) = Some m /\
  db_get (mem_ops true id_order) m (QVertexWithPropertyValue n_name j_3) = Ok [Vertices [v1]] /\
  db_get (mem_ops true id_order) m (QEdgeWithPropertyPresence n_name) = Ok [Edges []].
Proof.
  split; [apply api_tidy; reflexivity|]. split; [cbn; auto 10|]. apply run_with. vm_compute. auto.
Qed.

(** ... and those of the other section by the same history in a release build. *)
Example people_release :
  tidy_history false (calls h_people_2) /\ Forall (fun x => no_presence (snd x)) (calls h_people_2) /\
  indexed_by h_people_2 n_name /\
  exists m, mem_run false (calls h_people_2) = Some m /\
  db_get (mem_ops false id_order) m (QVertexWithPropertyValue n_name j_3) = Ok [Vertices [v1]].
Proof.
  split; [apply api_tidy; reflexivity|]. split.
  { repeat constructor; intros q n H; inversion H; subst; discriminate. }
  split; [cbn; auto 10|]. apply run_with. vm_compute. auto.
Qed.

(** In a release build the index keeps the deleted property: C14 fails. *)
Theorem C14_mem_release_refuted : exists h v n,
  tidy_history false h /\ indexed_by (map snd h) n /\
  exists m, mem_run false h = Some m /\
  db_get (mem_ops false id_order) m (QVertexWithPropertyPresence n) = Ok [Vertices [v]] /\
  get (vid v, n) (gvp (gof m)) = None.
Proof.
  exists (calls (h_people ++ [ODelete (q_vprop u1 n_name)])), v1, n_name.
  split; [apply api_tidy; reflexivity|]. split; [cbn; auto 10|].
  setoid_rewrite <- mem_false. apply run_with. vm_compute. auto.
Qed.

(** ... and a value query returns a vertex under its old value. *)
Theorem C14_mem_release_value_refuted : exists h v n x,
  tidy_history false h /\ indexed_by (map snd h) n /\
  exists m, mem_run false h = Some m /\
  db_get (mem_ops false id_order) m (QVertexWithPropertyValue n x) = Ok [Vertices [v]] /\
  exists y, get (vid v, n) (gvp (gof m)) = Some y /\ json_eq y x = false.
Proof.
  exists (calls (h_people ++ [OSetProperties (q_vertex u1) n_name j_3])), v1, n_name, j_bob.
  split; [apply api_tidy; reflexivity|]. split; [cbn; auto 10|].
  destruct (@run_with false (calls (h_people ++ [OSetProperties (q_vertex u1) n_name j_3])) (fun m =>
    db_get (mem_ops false id_order) m (QVertexWithPropertyValue n_name j_bob) = Ok [Vertices [v1]] /\
    match get (vid v1, n_name) (gvp (gof m)) with Some y => json_eq y j_bob | None => true end = false)) as (m & R & Q & V).
  { vm_compute. auto. }
  exists m. split; [exact R|]. split; [exact Q|]. destruct (get (vid v1, n_name) (gvp (gof m))) as [y|]; [eauto|discriminate].
Qed.

(** C41: in a release build an edge presence lookup returns a deleted edge
    whose endpoint no longer exists (so C01 needs its exception). *)
Theorem C41_mem_release_refuted : exists h e n,
  tidy_history false h /\
  exists m, mem_run false h = Some m /\
  db_get (mem_ops false id_order) m (QEdgeWithPropertyPresence n) = Ok [Edges [e]] /\
  mem e (ge (gof m)) = false /\ get (ein e) (gv (gof m)) = None.
Proof.
  exists (calls (h_people ++ [ODelete (q_vertex u2)])), e12, n_name.
  split; [apply api_tidy; reflexivity|]. apply run_with. vm_compute. auto.
Qed.

(** C41: a debug build does the same after bulk insertion of a property of a
    missing edge. *)
Theorem C41_mem_debug_bulk_refuted : exists h e n m,
  mem_run true h = Some m /\
  db_get (mem_ops true id_order) m (QEdgeWithPropertyPresence n) = Ok [Edges [e]] /\
  mem e (ge (gof m)) = false.
Proof.
  exists (calls [OIndexProperty n_name; OBulkInsert [BEProp e12 n_name j_true]]), e12, n_name.
  apply run_with. vm_compute. auto.
Qed.

(** C17: reading all properties of the largest UUID panics, in any build, and
    every later call panics too. *)
Theorem C17_mem_max_uuid_refuted dbg : exists h,
  tidy_history dbg h /\
  exists m, mem_run dbg h = Some m /\
  fst (exec (mem_ops dbg id_order) m (OGet (QPipeProperty (q_vertex umax) None))) = Panic /\
  (forall o, fst (mem_step dbg (mem_run dbg (h ++ [(id_order, OGet (QPipeProperty (q_vertex umax) None))])) o) = Panic).
Proof.
  exists (calls [OCreateVertex vmax]). split; [apply api_tidy; reflexivity|].
  apply run_with. destruct dbg; vm_compute; auto.
Qed.

(** C17: a property written before its vertex exists is not indexed;
    overwriting it later panics in a debug build. *)
Theorem C17_mem_debug_orphan_refuted : exists h m,
  mem_run true h = Some m /\
  fst (exec (mem_ops true id_order) m (OSetProperties (q_vertex u1) n_name j_3)) = Panic.
Proof.
  exists (calls [OBulkInsert [BVProp u1 n_name j_bob]; OIndexProperty n_name; OCreateVertex v1]).
  apply run_with. vm_compute. auto.
Qed.
