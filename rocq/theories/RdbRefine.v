(** * Every call on the RocksDB datastore resolves as the specification says
    and applies the RocksDB effect, or fails and leaves the database alone. *)
From Verif Require Import Base OMap Json Types Util Db Rdb Spec QueryFacts SpecFacts QueryTrust JsonFacts UtilFacts
  MemFacts MemRefine MemHist KeyFacts RdbSpec RdbRep RdbWrite RdbPut.

Set Implicit Arguments.

Lemma filt_all {K V} {O : Ord K} (t : omap K V) : filt (fun _ => true) t = t.
Proof. now apply filt_true. Qed.

Lemma no_bad g tlt vmatch q : ~ hits_bad g tlt vmatch (fun _ => False) q.
Proof.
  induction 1 as [inner ex vs _ Hx|]; [|assumption].
  apply Exists_exists in Hx as (? & _ & []).
Qed.

Section Refine.
  Variable H : list byte -> N.
  Variable enc : json -> bytes.
  Variable dec : bytes -> option json.
  Variable env : renv.
  Notation rep := (rep H enc dec).
  Notation lossless := (lossless enc dec).
  Notation exact := (exact H).

  (** The persisted set of indexed names is the one in memory. *)
  Definition metaok (L : lstate) (ix : oset ident) : Prop :=
    match l_m L with Some l => Permutation (keys ix) l | None => ix = empty end.

  (** When an update keeps the index entries exact. *)
  Definition exact_cond (g : graph) (a : action) : Prop :=
    match a with
    | ABulk items => consistent items
    | AIndex n => mem n (gix g) = true \/ no_orphans g
    | _ => True
    end.

  Definition good_action (a : action) : Prop :=
    match a with
    | ABulk items => Forall (good_item enc dec) items
    | ASetVProps _ _ x | ASetEProps _ _ x => lossless x
    | _ => True
    end.

  Definition did (s : rstate) (L : lstate) (a : action) (s' : rstate) : Prop :=
    exists L', rep (r_db s') L' /\
      gabs L' (r_indexed s') = r_apply (gabs L (r_indexed s)) a /\
      (exact_cond (gabs L (r_indexed s)) a -> exact L (r_indexed s) -> exact L' (r_indexed s')) /\
      (l_m L' = l_m L /\ r_indexed s' = r_indexed s \/ metaok L' (r_indexed s')).

  (** A failed call leaves the database alone; a failed [index_property] still
      adds its name to the set in memory. *)
  Definition undone (s : rstate) (s' : rstate) : Prop :=
    wok env = false /\ r_db s' = r_db s /\ r_indexed s' = r_indexed s.

  Definition performs (s : rstate) (L : lstate) (a : action) (x : outcome unit * rstate) : Prop :=
    fst x = Ok tt /\ did s L a (snd x) \/ fst x = Err EDatastore /\ undone s (snd x).

  Section Actions.
    Variable s : rstate.
    Variable L : lstate.
    Hypothesis R : rep (r_db s) L.
    Notation d := (r_db s).
    Notation ix := (r_indexed s).
    Notation g := (gabs L ix).

    Lemma did_none : did s L ANone s.
    Proof. exists L. conj; auto. Qed.

    (** Deletions. *)
    Lemma del_performs x p fv fe fvp fep a :
      dels H s L x p ->
      (forall i, p_v p i <-> fv i = true) ->
      (forall e, mem e (l_e L) = true -> (p_e p e <-> fe e = true)) ->
      (forall k x, get k (l_vp L) = Some x -> (p_vp p k <-> fvp k = true)) ->
      (forall k x, get k (l_ep L) = Some x -> (p_ep p k <-> fep k = true)) ->
      gabs (ldel H s L fv fe fvp fep) ix = r_apply g a ->
      performs s L a (write_built env s x).
    Proof.
      intros (b & -> & Hb) Hv He Hvp Hep G. unfold performs, write_built, write. destruct (wok env) eqn:W; cbn [fst snd].
      - left. split; [reflexivity|]. exists (ldel H s L fv fe fvp fep). cbn [r_db r_indexed]. conj.
        + eapply rep_ldel; eassumption.
        + exact G.
        + intros _. now apply exact_ldel.
        + auto.
      - right. split; [reflexivity|]. unfold undone. auto.
    Qed.

    Lemma gabs_keep (f : edge -> bool) (h : edge * ident -> bool) :
      gabs (ldel H s L (fun _ => false) f (fun _ => false) h) ix =
      Graph (l_v L) (filt (fun kv => negb (f (fst kv))) (l_e L)) (l_vp L) (filt (fun kv => negb (h (fst kv))) (l_ep L)) ix.
    Proof. unfold gabs, ldel. cbn. now rewrite !filt_all. Qed.

    Lemma delete_vertices_performs vs : performs s L (ADeleteVertices (map vid vs)) (rdb_delete_vertices H dec env s vs).
    Proof.
      unfold rdb_delete_vertices, over. eapply del_performs with
        (fv := fun i => inb i (map vid vs)) (fe := fun e => inb (eout e) (map vid vs))
        (fvp := fun k => inb (fst k) (map vid vs))
        (fep := fun k => inb (eout (fst k)) (map vid vs) && (mem (fst k) (l_e L) || mem (reversed (fst k)) (l_e L))).
      - apply for_each_dels with (p := fun v => pvertex L (vid v)). intros v _. apply (vertex_delete_dels s R).
      - intros i. rewrite inb_In, in_map_iff. cbn. split; [intros (v & Hv & E)|intros (v & E & Hv)]; eauto.
      - intros e Hm. rewrite inb_In, in_map_iff. cbn. split.
        + intros (v & Hv & E & _). eauto.
        + intros (v & E & Hv). eauto 6.
      - intros k x Hx. rewrite inb_In, in_map_iff. cbn. split.
        + intros (v & Hv & E & _). eauto.
        + intros (v & E & Hv). eauto 6.
      - intros k x Hx. rewrite andb_true_iff, orb_true_iff, inb_In, in_map_iff. cbn. split.
        + intros (v & Hv & E & Hm & _). eauto.
        + intros ((v & E & Hv) & Hm). exists v. conj; eauto.
      - reflexivity.
    Qed.

    Lemma delete_edges_performs es : performs s L (ADeleteEdges es) (rdb_delete_edges H dec env s es).
    Proof.
      unfold rdb_delete_edges, over.
      assert (forall e, In e (filter (fun e => mem (eout e) (l_v L)) es) <-> In e es /\ mem (eout e) (l_v L) = true) as F
        by (intros; apply filter_In).
      eapply del_performs with
        (fv := fun _ => false) (fe := fun e => inb e (filter (fun e => mem (eout e) (l_v L)) es))
        (fvp := fun _ => false) (fep := fun k => inb (fst k) (filter (fun e => mem (eout e) (l_v L)) es)).
      - apply for_each_dels with (p := fun e => if mem (eout e) (l_v L) then pedge L e else pnone).
        intros e _. rewrite (vertex_get_rep s R). cbn [obind]. unfold mem.
        destruct (get (eout e) (l_v L)); [apply (edge_delete_dels s R)|apply dels_none].
      - intros i. cbn. split; [|discriminate]. intros (e & _ & F'). destruct (mem (eout e) (l_v L)); destruct F'.
      - intros e _. rewrite inb_In, F. cbn. split.
        + intros (e' & He & E). destruct (mem (eout e') (l_v L)) eqn:M; [cbn in E; subst; auto|destruct E].
        + intros [He M]. exists e. rewrite M. cbn. auto.
      - intros k x _. cbn. split; [|discriminate]. intros (e & _ & F'). destruct (mem (eout e) (l_v L)); destruct F'.
      - intros k x Hx. rewrite inb_In, F. cbn. split.
        + intros (e' & He & E). destruct (mem (eout e') (l_v L)) eqn:M; [destruct E as [<- _]; auto|destruct E].
        + intros [He M]. exists (fst k). rewrite M. cbn. eauto.
      - apply gabs_keep.
    Qed.

    Lemma delete_vprops_performs ps : performs s L (ADeleteVProps ps) (rdb_delete_vertex_properties H dec env s ps).
    Proof.
      unfold rdb_delete_vertex_properties, over. eapply del_performs with
        (fv := fun _ => false) (fe := fun _ => false) (fvp := fun k => inb k ps) (fep := fun _ => false).
      - apply for_each_dels with (p := pvp1). intros [i n] _. apply (vprop_delete_dels s R).
      - intros i. cbn. split; [intros (? & _ & F); contradiction F|discriminate].
      - intros i _. cbn. split; [intros (? & _ & F); contradiction F|discriminate].
      - intros k x _. rewrite inb_In. cbn. split; [now intros (? & Hk & <-)|eauto].
      - intros k x _. cbn. split; [intros (? & _ & F); contradiction F|discriminate].
      - unfold gabs, ldel. cbn. now rewrite !filt_all.
    Qed.
    Lemma delete_eprops_performs ps : performs s L (ADeleteEProps ps) (rdb_delete_edge_properties H dec env s ps).
    Proof.
      unfold rdb_delete_edge_properties, over. eapply del_performs with
        (fv := fun _ => false) (fe := fun _ => false) (fvp := fun _ => false) (fep := fun k => inb k ps).
      - apply for_each_dels with (p := pep1). intros [i n] _. apply (eprop_delete_dels s R).
      - intros i. cbn. split; [intros (? & _ & F); contradiction F|discriminate].
      - intros i _. cbn. split; [intros (? & _ & F); contradiction F|discriminate].
      - intros k x _. cbn. split; [intros (? & _ & F); contradiction F|discriminate].
      - intros k x _. rewrite inb_In. cbn. split; [now intros (? & Hk & <-)|eauto].
      - unfold gabs, ldel. cbn. now rewrite !filt_all.
    Qed.

    (** Insertions. *)
    Lemma bulk_any items a :
      Forall (good_item enc dec) items -> r_apply g a = r_bulk_insert g items ->
      (exact_cond g a -> consistent items) ->
      performs s L a (write_built env s (over items (bulk_item_batch H enc dec s))).
    Proof.
      intros G A C. destruct (rep_items s R G R) as (b & -> & Rb). unfold performs, write_built, write.
      destruct (wok env) eqn:W; cbn [fst snd].
      - left. split; [reflexivity|]. exists (fold_left (l_item H ix L) items L). cbn [r_db r_indexed]. conj.
        + exact Rb.
        + now rewrite gabs_items, A.
        + intros HC X. apply exact_bulk; auto.
        + left. now rewrite l_m_items.
      - right. split; [reflexivity|]. unfold undone. auto.
    Qed.

    Lemma bulk_performs items : Forall (good_item enc dec) items -> performs s L (ABulk items) (rdb_bulk_insert H enc dec env s items).
    Proof. intros G. apply bulk_any; auto. Qed.

    Lemma over_map {A B} (f : A -> B) (h : B -> outcome batch) (l : list A) : over (map f l) h = over l (fun a => h (f a)).
    Proof.
      unfold over. rewrite map_map. induction l as [|a l IH]; cbn [map for_each obind]; [reflexivity|].
      now rewrite IH.
    Qed.

    Lemma set_vprops_performs ids n x : lossless x -> performs s L (ASetVProps ids n x) (rdb_set_vertex_properties H enc dec env s ids n x).
    Proof.
      intros Hx. unfold rdb_set_vertex_properties.
      rewrite <- (over_map (fun id => BVProp id n x) (bulk_item_batch H enc dec s)). apply bulk_any.
      - apply Forall_forall. intros it Hit. apply in_map_iff in Hit as (id & <- & _). exact Hx.
      - now rewrite r_bulk_vprops.
      - intros _. split; intros i m y z Hy Hz; apply in_map_iff in Hy as (? & Ey & _), Hz as (? & Ez & _); congruence.
    Qed.
    Lemma set_eprops_performs es n x : lossless x -> performs s L (ASetEProps es n x) (rdb_set_edge_properties H enc dec env s es n x).
    Proof.
      intros Hx. unfold rdb_set_edge_properties.
      rewrite <- (over_map (fun id => BEProp id n x) (bulk_item_batch H enc dec s)). apply bulk_any.
      - apply Forall_forall. intros it Hit. apply in_map_iff in Hit as (id & <- & _). exact Hx.
      - now rewrite r_bulk_eprops.
      - intros _. split; intros i m y z Hy Hz; apply in_map_iff in Hy as (? & Ey & _), Hz as (? & Ez & _); congruence.
    Qed.

    (** Creations, with what they return. *)
    Lemma create_vertex_performs v :
      let x := rdb_create_vertex H env s v in
      (fst x = Ok (negb (mem (vid v) (l_v L))) /\ did s L (ACreateVertex v) (snd x)) \/
      (fst x = Err EDatastore /\ undone s (snd x)).
    Proof.
      cbn zeta. unfold rdb_create_vertex. rewrite (vertex_exists_rep s R).
      destruct (mem (vid v) (l_v L)) eqn:E.
      - left. split; [reflexivity|]. exists L. cbn [snd]. conj; auto.
        cbn. unfold g_create_vertex. cbn. now rewrite E.
      - unfold write. destruct (wok env) eqn:W; cbn [sbind fst snd].
        + left. split; [reflexivity|]. exists (up_v L (vid v) (vt v)). cbn [r_db r_indexed]. conj.
          * apply (rep_put_v (vid v) (vt v) R).
          * cbn. unfold g_create_vertex. cbn. now rewrite E.
          * auto.
          * auto.
        + right. unfold undone. auto.
    Qed.

    Lemma create_edge_performs e :
      let x := rdb_create_edge H env s e in
      (fst x = Ok (mem (eout e) (l_v L) && mem (ein e) (l_v L)) /\ did s L (ACreateEdge e) (snd x)) \/
      (fst x = Err EDatastore /\ undone s (snd x)).
    Proof.
      cbn zeta. unfold rdb_create_edge. rewrite !(vertex_exists_rep s R).
      destruct (mem (eout e) (l_v L) && mem (ein e) (l_v L)) eqn:E.
      - apply andb_true_iff in E as [E1 E2]. rewrite E1, E2. cbn [negb orb].
        unfold write. destruct (wok env) eqn:W; cbn [sbind fst snd].
        + left. split; [reflexivity|]. exists (up_e L e). cbn [r_db r_indexed]. conj.
          * apply (rep_edge_set _ e R).
          * cbn. unfold g_create_edge. cbn. now rewrite E1, E2.
          * auto.
          * auto.
        + right. unfold undone. auto.
      - rewrite <- negb_andb, E. cbn [negb]. left. split; [reflexivity|]. exists L. cbn [snd]. conj; auto.
        cbn. unfold g_create_edge. cbn. now rewrite E.
    Qed.

    Lemma index_performs n :
      let x := rdb_index_property H dec env s n in
      (fst x = Ok tt /\ did s L (AIndex n) (snd x)) \/
      (fst x = Err EDatastore /\ wok env = false /\ r_db (snd x) = r_db s /\ r_indexed (snd x) = add n ix /\ mem n ix = false).
    Proof.
      cbn zeta. unfold rdb_index_property. destruct (mem n ix) eqn:E.
      - left. split; [reflexivity|]. exists L. cbn [snd]. 
        assert (add n ix = ix) as A.
        { apply omap_ext. intros k. unfold add. rewrite get_set. destruct (eqb k n) eqn:F; [|reflexivity].
          apply eqb_eq in F. subst. symmetry. now apply get_oset. }
        conj; auto. cbn. unfold g_index_property. cbn. now rewrite A.
      - destruct (vertices_from_rep s R nil_uuid) as (vs & -> & Hvs).
        destruct (edges_all_rep s R) as (es & -> & Hes).
        pose proof (rep_put_m (iord env (keys (add n ix))) R) as R1.
        destruct (rep_ix_v s n vs R R1) as (b1 & -> & R2). cbn [obind].
        destruct (rep_ix_e s n es R R2) as (b2 & -> & R3). cbn [obind write_built].
        unfold write. destruct (wok env) eqn:W; cbn [fst snd].
        + left. split; [reflexivity|].
          exists (l_index H L n (iord env (keys (add n ix))) (map vid vs) es). cbn [r_db r_indexed]. conj.
          * rewrite !apply_batch_app. exact R3.
          * reflexivity.
          * intros HC X. apply exact_index; auto.
            -- intros id x Hx. destruct HC as [HC|NO]; [cbn in HC; congruence|].
               pose proof (no_vorphan NO _ _ Hx) as Hm. cbn in Hm. apply mem_get in Hm as (t & Ht).
               apply in_map_iff. exists (Vertex id t). split; [reflexivity|]. apply (proj2 Hvs). split; [exact Ht|apply nil_min].
            -- intros e x Hx. destruct HC as [HC|NO]; [cbn in HC; congruence|].
               apply (proj2 Hes). exact (no_eorphan NO _ _ Hx).
          * right. unfold metaok. cbn. apply iord_perm.
        + right. conj; auto.
    Qed.
  End Actions.

  (** ** Whole calls *)

  Definition good_op (o : op) : Prop :=
    match o with
    | OBulkInsert items => Forall (good_item enc dec) items
    | OSetProperties _ _ x | TSetVertexProperties _ _ x | TSetEdgeProperties _ _ x => lossless x
    | _ => True
    end.

  (** A call that failed because RocksDB did. *)
  Definition io_failed (s : rstate) (o : op) (r : outcome res) (s' : rstate) : Prop :=
    wok env = false /\ r = Err EDatastore /\ r_db s' = r_db s /\
    (r_indexed s' = r_indexed s \/
     exists n, o = OIndexProperty n /\ mem n (r_indexed s) = false /\ r_indexed s' = add n (r_indexed s)).

  Lemma undone_failed s o s' : undone s s' -> io_failed s o (Err EDatastore) s'.
  Proof. intros (W & D & I). unfold io_failed. auto. Qed.

  Theorem rdb_exec_spec s L o r s' :
    rep (r_db s) L -> good_op o ->
    (forall q n, op_query o = Some q -> In n (index_names q) -> indexed (gabs L (r_indexed s)) n -> rix_ok H L n) ->
    exec (rdb_ops H enc dec env) s o = (r, s') ->
    (exists a, resolves slt (hm H) (gabs L (r_indexed s)) o r a /\ did s L a s') \/ io_failed s o r s'.
  Proof.
    intros R GO X. pose proof (rdb_reads_ok s R env) as RO.
    assert (forall a (x : outcome unit * rstate), performs s L a x ->
             resolves slt (hm H) (gabs L (r_indexed s)) o (Ok RUnit) a ->
             resw (fun _ => RUnit) x = (r, s') ->
             (exists a, resolves slt (hm H) (gabs L (r_indexed s)) o r a /\ did s L a s') \/ io_failed s o r s') as U.
    { intros a [r1 s1] [[E1 D]|[E1 UN]] HR E; cbn [fst snd] in *; subst r1; inversion E; subst.
      - left. eauto.
      - right. now apply undone_failed. }
    assert (did s L ANone s) as DN by apply did_none, R.
    destruct o; cbn [exec]; intros E; cbn [op_query good_op] in *.
    - destruct (create_vertex_performs s R v) as [[Ev D]|[Ev UN]]; cbn in E; unfold resw in E; rewrite Ev in E;
        inversion E; subst.
      + left. eexists. split; [|exact D]. cbn. apply (re_create_vertex slt (hm H) (gabs L (r_indexed s)) v).
      + right. now apply undone_failed.
    - destruct (create_vertex_performs s R (Vertex id t)) as [[Ev D]|[Ev UN]];
        unfold db_create_vertex_from_type in E; cbn in E;
        destruct (rdb_create_vertex H env s (Vertex id t)) as [r1 s1]; cbn [fst snd] in *; subst r1; cbn [sbind] in E.
      + left. cbn [vid] in E. destruct (mem id (l_v L)) eqn:F; cbn in E; inversion E; subst.
        * exists ANone. split; [now constructor|]. destruct D as (L' & R' & G' & K). exists L'. split; [assumption|].
          split; [|exact K]. rewrite G'. cbn. unfold g_create_vertex. cbn. now rewrite F.
        * exists (ACreateVertex (Vertex id t)). split; [now constructor|assumption].
      + inversion E; subst. right. now apply undone_failed.
    - destruct (create_edge_performs s R e) as [[Ev D]|[Ev UN]]; cbn in E; unfold resw in E; rewrite Ev in E;
        inversion E; subst.
      + left. eexists. split; [|exact D]. cbn. apply (re_create_edge slt (hm H) (gabs L (r_indexed s)) e).
      + right. now apply undone_failed.
    - inversion E; subst. left. exists ANone. split; [|assumption].
      destruct (db_get_ok slt_order RO q) as [(ex & v & -> & Hv)|[(e & -> & Hf)|(-> & Hb)]]; [eauto| | |]; cbn.
      + now constructor.
      + now constructor.
      + now apply no_bad in Hb.
    - unfold db_delete in E.
      destruct (query_value slt_order RO q) as [(ex & v & rest & Eq & Hv)|[(e & Eq & Hf)|(Eq & Hb)]]; [eauto| | |];
        rewrite Eq in E.
      + destruct v as [l|l|l|l|l]; cbn in E.
        * eapply U; [apply (delete_vertices_performs s R)|eapply re_delete_vertices; eauto|exact E].
        * eapply U; [apply (delete_edges_performs s R)|eapply re_delete_edges; eauto|exact E].
        * inversion E; subst. left. exists ANone. split; [eapply re_delete_count; eauto|assumption].
        * eapply U; [apply (delete_vprops_performs s R)|eapply re_delete_vprops; eauto|exact E].
        * eapply U; [apply (delete_eprops_performs s R)|eapply re_delete_eprops; eauto|exact E].
      + inversion E; subst. left. exists ANone. split; [now constructor|assumption].
      + now apply no_bad in Hb.
    - unfold db_set_properties in E.
      destruct (query_value slt_order RO q) as [(ex & v & rest & Eq & Hv)|[(e & Eq & Hf)|(Eq & Hb)]]; [eauto| | |];
        rewrite Eq in E.
      + destruct v as [l|l|l|l|l]; cbn in E.
        * eapply U; [apply (set_vprops_performs s R); exact GO|eapply re_set_vertices; eauto|exact E].
        * eapply U; [apply (set_eprops_performs s R); exact GO|eapply re_set_edges; eauto|exact E].
        * inversion E; subst. left. exists ANone. split; [eapply re_set_kind; eauto|assumption].
        * inversion E; subst. left. exists ANone. split; [eapply re_set_kind; eauto|assumption].
        * inversion E; subst. left. exists ANone. split; [eapply re_set_kind; eauto|assumption].
      + inversion E; subst. left. exists ANone. split; [now constructor|assumption].
      + now apply no_bad in Hb.
    - eapply U; [apply (bulk_performs s R); exact GO|constructor|exact E].
    - destruct (index_performs s R name) as [[Ev D]|(Ev & W & HD & I & M)]; cbn in E; unfold resw in E; rewrite Ev in E;
        inversion E; subst.
      + left. eexists. split; [|exact D]. constructor.
      + right. unfold io_failed. conj; auto. right. eauto.
    - cbn in E. unfold rdb_sync in E. destruct (wok env) eqn:W; cbn in E; inversion E; subst.
      + left. exists ANone. split; [constructor|assumption].
      + right. unfold io_failed. conj; auto.
    - eapply U; [apply (delete_vertices_performs s R)|constructor|exact E].
    - eapply U; [apply (delete_edges_performs s R)|constructor|exact E].
    - eapply U; [apply (delete_vprops_performs s R)|constructor|exact E].
    - eapply U; [apply (delete_eprops_performs s R)|constructor|exact E].
    - eapply U; [apply (set_vprops_performs s R); exact GO|constructor|exact E].
    - eapply U; [apply (set_eprops_performs s R); exact GO|constructor|exact E].
  Qed.

  (** ** Any state of the index *)

  (** The updates a call may ask for. *)
  Inductive shaped : op -> action -> Prop :=
  | sh_none o : shaped o ANone
  | sh_create_vertex v : shaped (OCreateVertex v) (ACreateVertex v)
  | sh_create_type id t : shaped (OCreateVertexFromType id t) (ACreateVertex (Vertex id t))
  | sh_create_edge e : shaped (OCreateEdge e) (ACreateEdge e)
  | sh_dv q ids : shaped (ODelete q) (ADeleteVertices ids)
  | sh_de q es : shaped (ODelete q) (ADeleteEdges es)
  | sh_dvp q ps : shaped (ODelete q) (ADeleteVProps ps)
  | sh_dep q ps : shaped (ODelete q) (ADeleteEProps ps)
  | sh_sv q n x ids : shaped (OSetProperties q n x) (ASetVProps ids n x)
  | sh_se q n x es : shaped (OSetProperties q n x) (ASetEProps es n x)
  | sh_bulk items : shaped (OBulkInsert items) (ABulk items)
  | sh_index n : shaped (OIndexProperty n) (AIndex n)
  | sh_tdv vs : shaped (TDeleteVertices vs) (ADeleteVertices (map vid vs))
  | sh_tde es : shaped (TDeleteEdges es) (ADeleteEdges es)
  | sh_tdvp ps : shaped (TDeleteVertexProperties ps) (ADeleteVProps ps)
  | sh_tdep ps : shaped (TDeleteEdgeProperties ps) (ADeleteEProps ps)
  | sh_tsv ids n x : shaped (TSetVertexProperties ids n x) (ASetVProps ids n x)
  | sh_tse es n x : shaped (TSetEdgeProperties es n x) (ASetEProps es n x).

  Lemma resolves_shaped tlt vmatch g o r a : resolves tlt vmatch g o r a -> shaped o a.
  Proof. intros []; constructor. Qed.

  Definition plain_result (a : action) (r : outcome res) : Prop :=
    (exists x, r = Ok x) \/ (exists e, r = Err e /\ (qerr e \/ e = UuidTaken) /\ a = ANone).

  Lemma rdb_query_trust s L q : rep (r_db s) L ->
    trust (rdb_ops H enc dec env) s (gabs L (r_indexed s)) (fun _ => False) q False [].
  Proof.
    intros R. eapply (query_trust slt_order (rdb_reads_ok s R env)) with (tl := fun _ => False).
    - intros n l [].
    - intros n x l [].
    - intros [].
  Qed.

  Lemma rdb_query_any s L q : rep (r_db s) L ->
    (exists v rest, query_exec (rdb_ops H enc dec env) s q [] = Ok (v :: rest)) \/
    (exists e, query_exec (rdb_ops H enc dec env) s q [] = Err e /\ qerr e).
  Proof.
    intros R. pose proof (rdb_query_trust s q R) as T. unfold trust in T.
    destruct (query_exec (rdb_ops H enc dec env) s q []) as [out|e|].
    - destruct T as (v & rest & -> & _). eauto.
    - eauto.
    - destruct T as (_ & ? & _ & []).
  Qed.

  Theorem rdb_exec_any s L o r s' :
    rep (r_db s) L -> good_op o ->
    exec (rdb_ops H enc dec env) s o = (r, s') ->
    (exists a, shaped o a /\ did s L a s' /\ plain_result a r) \/ io_failed s o r s'.
  Proof.
    intros R GO.
    assert (forall a (x : outcome unit * rstate), performs s L a x -> shaped o a ->
             resw (fun _ => RUnit) x = (r, s') ->
             (exists a, shaped o a /\ did s L a s' /\ plain_result a r) \/ io_failed s o r s') as U.
    { intros a [r1 s1] [[E1 D]|[E1 UN]] HR E; cbn [fst snd] in *; subst r1; inversion E; subst.
      - left. exists a. conj; auto. left. eauto.
      - right. now apply undone_failed. }
    assert (did s L ANone s) as DN by apply did_none, R.
    destruct (op_query o) as [q|] eqn:OQ.
    2:{ intros E. destruct (@rdb_exec_spec s L o r s' R GO) as [(a & HR & D)|F]; auto.
        - intros q n Hq. congruence.
        - left. exists a. conj; auto; [eapply resolves_shaped; eauto|].
          destruct HR; try discriminate; try (left; eauto; fail). right. eauto 6. }
    pose proof (rdb_query_any s q R) as QA.
    assert (forall e, qerr e -> (Err e : outcome res, s) = (r, s') ->
       (exists a, shaped o a /\ did s L a s' /\ plain_result a r) \/ io_failed s o r s') as QE.
    { intros e He E. inversion E; subst. left. exists ANone. conj; [constructor|assumption|]. right. eauto 6. }
    destruct o; cbn [exec]; intros E; cbn [op_query good_op] in *; inversion OQ; subst.
    - inversion E; subst. unfold db_get. destruct QA as [(v & rest & ->)|(e & -> & He)]; cbn.
      + left. exists ANone. conj; [constructor|assumption|left; eauto].
      + left. exists ANone. conj; [constructor|assumption|right; eauto 6].
    - unfold db_delete in E. destruct QA as [(v & rest & Q)|(e & Q & He)]; rewrite Q in E; cbn [obind pop] in E.
      + destruct v as [l|l|l|l|l]; cbn in E.
        * eapply U; [apply (delete_vertices_performs s R)|constructor|exact E].
        * eapply U; [apply (delete_edges_performs s R)|constructor|exact E].
        * eapply QE; [|exact E]. exact I.
        * eapply U; [apply (delete_vprops_performs s R)|constructor|exact E].
        * eapply U; [apply (delete_eprops_performs s R)|constructor|exact E].
      + eapply QE; eauto.
    - unfold db_set_properties in E. destruct QA as [(v & rest & Q)|(e & Q & He)]; rewrite Q in E; cbn [obind pop] in E.
      + destruct v as [l|l|l|l|l]; cbn in E; try (eapply QE; [|exact E]; exact I).
        * eapply U; [apply (set_vprops_performs s R); exact GO|constructor|exact E].
        * eapply U; [apply (set_eprops_performs s R); exact GO|constructor|exact E].
      + eapply QE; eauto.
  Qed.
End Refine.
