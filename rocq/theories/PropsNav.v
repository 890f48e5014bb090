(** * C44: every edge is found from both of its ends; C45: a new element is bare. *)
From Verif Require Import Base OMap Json Types Util Db Mem Rdb Spec QueryFacts SpecFacts QueryTrust JsonFacts UtilFacts
  MemFacts MemRefine MemHist KeyFacts RdbSpec RdbRep RdbWrite RdbPut RdbRefine RdbGraph RdbHist RdbCrash Stages Effects Claims Nav PropsMem PropsRdb Examples PropsMemIndex PropsRdbIndex.
From Coq Require Import Permutation.

Set Implicit Arguments.

(** A call that created the vertex [v]. *)
Definition created (v : vertex) (o : op) (r : outcome res) : Prop :=
  (o = OCreateVertex v /\ r = Ok (RBoolean true)) \/
  (o = OCreateVertexFromType (vid v) (vt v) /\ r = Ok (RUuid (vid v))).

Section MemNav.
  Variable dbg : bool.
  Variable h : list (order * op).
  Variable m : memory.
  Hypothesis Run : mem_run dbg h = Some m.
  Variable ord : order.
  Notation ops := (mem_ops dbg ord).
  Notation g := (gof m).

  Lemma mem_ends d e : has_edge ops m e -> exists v, has_vertex ops m v /\ vid v = endpoint d e.
  Proof.
    intros He. apply (has_edge_iff (run_reads dbg h Run ord)) in He. destruct (run_weak dbg h Run) as (_ & _ & EP & _).
    destruct (EP e He) as [E1 E2]. apply mem_get in E1 as (t1 & E1), E2 as (t2 & E2).
    destruct d; [exists (Vertex (eout e) t1)|exists (Vertex (ein e) t2)]; (split; [|reflexivity]);
      apply (has_vertex_iff (run_reads dbg h Run ord)); assumption.
  Qed.

  (** The edges of a vertex in either direction are exactly the edges of the
      database with that end (and type), each once. *)
  Theorem C44_mem_edges_of id d t limit : exists l,
    db_get ops m (q_edges_of id d limit t) = Ok [Edges (firstn (N.to_nat limit) l)] /\ NoDup l /\
    forall e, In e l <-> has_edge ops m e /\ endpoint d e = id /\ type_ok t (et e).
  Proof.
    destruct (nav_edges_of lex_order (run_reads dbg h Run ord) id d t limit) as (l & E & ND & Hl). exists l. conj; auto.
    intros e. rewrite Hl. split; [tauto|]. intros (A & <- & B). conj; auto. apply mem_ends. exact A.
  Qed.

  (** The two ends of an edge. *)
  Theorem C44_mem_ends e d limit v : (0 < limit)%N ->
    (db_get ops m (QPipe (QSpecificEdge [e]) d limit None) = Ok [Vertices [v]] <->
     has_edge ops m e /\ has_vertex ops m v /\ vid v = endpoint d e).
  Proof. apply (nav_ends (run_reads dbg h Run ord)). Qed.

  Theorem C44_mem_ends_exist e d limit : (0 < limit)%N -> has_edge ops m e ->
    exists v, db_get ops m (QPipe (QSpecificEdge [e]) d limit None) = Ok [Vertices [v]] /\ vid v = endpoint d e.
  Proof.
    intros L He. destruct (mem_ends d He) as (v & Hv & Ev). exists v. split; [|exact Ev]. apply C44_mem_ends; auto.
  Qed.

  (** Following all vertices in either direction lists every edge once. *)
  Theorem C44_mem_all_outbound t limit : exists l, db_get ops m QAllEdge = Ok [Edges l] /\ NoDup l /\
    (forall e, In e l <-> has_edge ops m e) /\
    db_get ops m (QPipe QAllVertex Outbound limit t) =
      Ok [Edges (firstn (N.to_nat limit) (filter (fun e => type_okb t (et e)) l))].
  Proof.
    destruct (nav_all_edges lex_order (run_reads dbg h Run ord)) as (l & E & ND & Hl). exists l. conj; auto.
    apply (nav_all_outbound lex_order (run_reads dbg h Run ord)); [|exact E]. intros e He. apply (mem_ends Outbound He).
  Qed.
  Theorem C44_mem_all_inbound t limit : exists l l', db_get ops m QAllEdge = Ok [Edges l] /\
    db_get ops m (QPipe QAllVertex Inbound limit t) = Ok [Edges (firstn (N.to_nat limit) l')] /\
    Permutation l' (filter (fun e => type_okb t (et e)) l).
  Proof.
    destruct (nav_all_edges lex_order (run_reads dbg h Run ord)) as (l & E & ND & Hl).
    destruct (@nav_all_inbound _ _ _ _ _ _ _ _ lex_order (run_reads dbg h Run ord) t limit l) as (l' & E' & P); [|exact E|eauto].
    intros e He. apply (mem_ends Inbound He).
  Qed.

  (** ** C45 *)
  Lemma mem_created v o r m' : created v o r -> exec ops m o = (r, m') -> vertex_created v g (gof m') /\
    mem_run dbg (h ++ [(ord, o)]) = Some m'.
  Proof.
    intros C E. assert (r <> Panic) as NP by (destruct C as [[_ ->]|[_ ->]]; discriminate).
    split.
    - destruct C as [[-> ->]|[-> ->]].
      + destruct (C02_mem_create_vertex h Run E) as [[_ X]|(X & _)]; [exact X|discriminate].
      + destruct (C40_mem_fresh h Run E) as [[_ X]|(X & _)]; [destruct v; exact X|discriminate].
    - rewrite mem_run_snoc, Run. unfold mem_step. cbn [fst snd]. rewrite E. destruct r; try reflexivity. now elim NP.
  Qed.

  (** A new vertex has no edges. *)
  Theorem C45_mem_vertex_edges v o r m' ord' d limit t : created v o r -> exec ops m o = (r, m') ->
    db_get (mem_ops dbg ord') m' (q_edges_of (vid v) d limit t) = Ok [Edges []].
  Proof.
    intros C E. destruct (mem_created C E) as [VC Run'].
    destruct (nav_edges_of lex_order (run_reads dbg _ Run' ord') (vid v) d t limit) as (l & -> & _ & Hl).
    destruct l as [|e l]; [unfold limited; now rewrite firstn_nil|]. exfalso.
    destruct (proj1 (Hl e) (or_introl eq_refl)) as (He & Ee & _).
    apply (has_edge_iff (run_reads dbg _ Run' ord')) in He. apply (vc_edges VC) in He.
    destruct (run_weak dbg h Run) as (_ & _ & EP & _). destruct (EP e He) as [E1 E2]. pose proof (vc_new VC) as N.
    apply mem_false in N. destruct d; cbn in Ee; congruence.
  Qed.
End MemNav.

Section MemBare.
  Variable dbg : bool.

  (** Vertex properties belong to vertices (any build). *)
  Definition vprops_owned (g : graph) : Prop := forall id n x, get (id, n) (gvp g) = Some x -> mem id (gv g) = true.

  Lemma owned_create_vertex g v : vprops_owned g -> vprops_owned (g_create_vertex g v).
  Proof.
    intros O id n x. unfold g_create_vertex. destruct (mem (vid v) (gv g)) eqn:E; [apply O|]. cbn.
    intros H. rewrite mem_set. apply orb_true_iff. right. eapply O; eauto.
  Qed.
  Lemma owned_set_vprops g ids n x : (forall id, In id ids -> mem id (gv g) = true) ->
    vprops_owned g -> vprops_owned (g_set_vertex_properties g ids n x).
  Proof.
    intros Hi O id m y H. destruct (set_vprops_claim g ids n x) as [SV _ _ K _ _]. change (gv (g_set_vertex_properties g ids n x)) with (gv g).
    destruct (inb id ids) eqn:I; [apply inb_In in I; auto|]. rewrite K in H; [eapply O; eauto|].
    intros [J _]. apply inb_In in J. congruence.
  Qed.
  Lemma owned_create_edge g e : vprops_owned g -> vprops_owned (g_create_edge g e).
  Proof. intros O. unfold g_create_edge. destruct (_ && _); exact O. Qed.
  Lemma owned_bulk items : forall g, tidy_items g items -> vprops_owned g -> vprops_owned (g_bulk_insert g items).
  Proof.
    unfold g_bulk_insert. induction items as [|it items IH]; intros g; cbn [tidy_items fold_left]; [auto|]. intros [H1 H2] O.
    apply IH; [assumption|]. destruct it; cbn [g_bulk_item tidy_item] in *.
    - now apply owned_create_vertex.
    - now apply owned_create_edge.
    - apply owned_set_vprops; [|assumption]. intros i [<-|[]]. assumption.
    - exact O.
  Qed.

  Lemma run_owned h : forall m, tidy_history dbg h -> mem_run dbg h = Some m -> vprops_owned (gof m).
  Proof.
    induction h as [|x h IH] using rev_ind; intros m T Hm.
    - cbn in Hm. inversion Hm; subst. rewrite gof_empty. intros id n y. cbn. rewrite get_empty. discriminate.
    - pose proof (T h x []) as Tx. rewrite mem_run_snoc in Hm. apply mem_step_Some in Hm as (m0 & r & E0 & E & N & _).
      pose proof (IH m0 (tidy_prefix T) E0) as O. specialize (Tx m0 eq_refl E0).
      destruct (run_weak dbg h E0) as (_ & M & _). destruct (mem_effect dbg (fst x) (snd x) M E N) as [_ ->].
      set (ops := mem_ops dbg (fst x)).
      assert (forall q vs, answer ops m0 q = Ok (Vertices vs) -> forall id, In id (map vid vs) -> mem id (gv (gof m0)) = true) as Ex.
      { intros q vs A id Hid. apply in_map_iff in Hid as (v & <- & Hv).
        destruct (get_cases lex_order (run_reads dbg h E0 (fst x)) q) as [(v0 & ex & _ & G & A')|[(e & _ & G & A')|(_ & G & A')]];
          fold ops in G, A'; rewrite A in A'; inversion A'; subst v0.
        apply mem_get. exists (vt v). change (is_vertex (gof m0) v).
        eapply (@C01_mem_vertices_exist dbg h m0 E0 (fst x) q _ (Vertices vs) v G); [apply in_or_app; right; left; reflexivity|exact Hv]. }
      assert (forall ids, vprops_owned (g_delete_vertices (gof m0) ids)) as DV.
      { intros ids id n y H. apply (vd_vprops (delete_vertices_claim (gof m0) ids)) in H as [H NI]. apply O in H.
        apply mem_get in H as (t & H). apply mem_get. exists t. now apply (vd_vertices (delete_vertices_claim (gof m0) ids)). }
      assert (forall ps, vprops_owned (g_delete_vertex_properties (gof m0) ps)) as DP.
      { intros ps id n y H. apply (vpd_vprops (delete_vprops_claim (gof m0) ps)) in H as [H NI]. now apply O in H. }
      destruct (snd x) as [v|id t|e|q|q|q n y|items|n| |vs|es|ps|ps|ids n y|es n y]; cbn [request snd g_apply tidy_op] in *;
        try exact O; auto using owned_create_vertex, owned_create_edge, owned_bulk, owned_set_vprops.
      + destruct (mem id _); cbn [snd g_apply]; auto using owned_create_vertex.
      + destruct (answer ops m0 q) as [[]| |]; cbn [snd g_apply]; auto; exact O.
      + destruct (answer ops m0 q) as [[]| |] eqn:A; cbn [snd g_apply]; try exact O. eapply owned_set_vprops; eauto.
  Qed.

  Variable h : list (order * op).
  Variable m : memory.
  Hypothesis Run : mem_run dbg h = Some m.
  Hypothesis Tidy : tidy_history dbg h.
  Variable ord : order.
  Notation ops := (mem_ops dbg ord).

  (** A new vertex has no properties if properties were only ever written to
      existing elements. *)
  Theorem C45_mem_vertex_properties_partial v o r m' ord' n : created v o r -> exec ops m o = (r, m') ->
    db_get (mem_ops dbg ord') m' (q_vprop (vid v) n) = Ok [VertexProperties []].
  Proof.
    intros C E. destruct (mem_created dbg h Run ord C E) as [VC Run'].
    rewrite (sh_vprop (mem_shows dbg _ Run' ord')), (vc_vprops VC). destruct (get (vid v) (gv (gof m'))); [|reflexivity].
    destruct (get (vid v, n) (gvp (gof m))) as [x|] eqn:G; [|reflexivity].
    apply (run_owned Tidy Run) in G. pose proof (vc_new VC) as N. apply mem_false in N. congruence.
  Qed.
End MemBare.

(** A new edge has no properties (debug builds). *)
Theorem C45_mem_debug_edge_properties_partial h m ord e m' ord' n : mem_run true h = Some m -> tidy_history true h ->
  ~ has_edge (mem_ops true ord) m e -> exec (mem_ops true ord) m (OCreateEdge e) = (Ok (RBoolean true), m') ->
  db_get (mem_ops true ord') m' (q_edge e) = Ok [Edges [e]] /\
  db_get (mem_ops true ord') m' (q_eprop e n) = Ok [EdgeProperties []].
Proof.
  intros Run T NE E. destruct (C03_mem_create_edge h Run E) as [[_ EC]|(X & _)]; [|discriminate].
  assert (mem_run true (h ++ [(ord, OCreateEdge e)]) = Some m') as Run'.
  { rewrite mem_run_snoc, Run. unfold mem_step. cbn [fst snd]. now rewrite E. }
  pose proof (mem_shows true _ Run' ord') as Sh. rewrite (sh_edge Sh), (sh_eprop Sh), (ec_eprops EC).
  assert (mem e (ge (gof m')) = true) as -> by (apply (proj2 (ec_edges EC e)); now left). split; [reflexivity|].
  destruct (get (e, n) (gep (gof m))) as [x|] eqn:G; [|reflexivity].
  destruct (run_tidy T Run) as [_ NO]. apply (no_eorphan NO) in G. elim NE. now apply (has_edge_iff (run_reads true h Run ord)).
Qed.

(** In release builds a stale index entry lets [set_properties] write to a
    deleted edge; the edge has that property when it is created again. *)
Theorem C45_mem_release_edge_refuted : exists h m e n x,
  forallb (fun o => api_op (snd o)) h = true /\ mem_run false h = Some m /\
  db_get (mem_ops false id_order) m (q_edge e) = Ok [Edges []] /\
  exists m', exec (mem_ops false id_order) m (OCreateEdge e) = (Ok (RBoolean true), m') /\
  db_get (mem_ops false id_order) m' (q_eprop e n) = Ok [EdgeProperties [EProps e [NProp n x]]].
Proof.
  set (h := calls [OCreateVertex v1; OCreateVertex v2; OCreateEdge e12; OIndexProperty n_name;
                   OSetProperties (QSpecificEdge [e12]) n_name j_true; ODelete (QSpecificEdge [e12]);
                   OSetProperties (QEdgeWithPropertyPresence n_name) n_name j_bob]).
  assert (exists m, mem_run false h = Some m /\
    (db_get (mem_ops false id_order) m (q_edge e12) = Ok [Edges []] /\
     let x := exec (mem_ops false id_order) m (OCreateEdge e12) in
     fst x = Ok (RBoolean true) /\
     db_get (mem_ops false id_order) (snd x) (q_eprop e12 n_name) = Ok [EdgeProperties [EProps e12 [NProp n_name j_bob]]])) as (m & Run & A & B & C).
  { apply run_with. vm_compute. auto. }
  exists h, m, e12, n_name, j_bob. conj; auto.
  exists (snd (exec (mem_ops false id_order) m (OCreateEdge e12))). split; [|exact C]. rewrite <- B. apply surjective_pairing.
Qed.

Section RdbNav.
  Variable H : list byte -> N.
  Variable enc : json -> bytes.
  Variable dec : bytes -> option json.
  Variable h : list (renv * op).
  Hypothesis Good : good_history enc dec h.
  Variable env : renv.
  Notation ops := (rdb_ops H enc dec env).
  Notation s := (rdb_run H enc dec h).
  Notation g := (rgof dec s).

  Lemma rdb_outbound_end e : no_bulk h -> has_edge ops s e -> exists v, has_vertex ops s v /\ vid v = eout e.
  Proof.
    intros NB He. destruct (rdb_run_reads H Good env) as (ix & RO). apply (has_edge_iff RO) in He.
    destruct (C22_rdb_outbound H Good NB He) as (t & Et). exists (Vertex (eout e) t). split; [|reflexivity].
    apply (has_vertex_iff RO). exact Et.
  Qed.

  Theorem C44_rdb_edges_of_partial id d t limit : exists l,
    db_get ops s (q_edges_of id d limit t) = Ok [Edges (firstn (N.to_nat limit) l)] /\ NoDup l /\
    forall e, In e l <-> has_edge ops s e /\ endpoint d e = id /\ type_ok t (et e) /\
                         exists v, has_vertex ops s v /\ vid v = id.
  Proof. destruct (rdb_run_reads H Good env) as (ix & RO). apply (nav_edges_of slt_order RO). Qed.

  Theorem C44_rdb_ends e d limit v : (0 < limit)%N ->
    (db_get ops s (QPipe (QSpecificEdge [e]) d limit None) = Ok [Vertices [v]] <->
     has_edge ops s e /\ has_vertex ops s v /\ vid v = endpoint d e).
  Proof. destruct (rdb_run_reads H Good env) as (ix & RO). apply (nav_ends RO). Qed.

  Theorem C44_rdb_all_outbound_partial t limit : no_bulk h -> exists l, db_get ops s QAllEdge = Ok [Edges l] /\ NoDup l /\
    (forall e, In e l <-> has_edge ops s e) /\
    db_get ops s (QPipe QAllVertex Outbound limit t) =
      Ok [Edges (firstn (N.to_nat limit) (filter (fun e => type_okb t (et e)) l))].
  Proof.
    intros NB. destruct (rdb_run_reads H Good env) as (ix & RO).
    destruct (nav_all_edges slt_order RO) as (l & E & ND & Hl). exists l. conj; auto.
    apply (nav_all_outbound slt_order RO); [|exact E]. intros e He. now apply rdb_outbound_end.
  Qed.
  Theorem C44_rdb_all_inbound_partial t limit :
    (forall e, has_edge ops s e -> exists v, has_vertex ops s v /\ vid v = ein e) ->
    exists l l', db_get ops s QAllEdge = Ok [Edges l] /\
    db_get ops s (QPipe QAllVertex Inbound limit t) = Ok [Edges (firstn (N.to_nat limit) l')] /\
    Permutation l' (filter (fun e => type_okb t (et e)) l).
  Proof.
    intros Ends. destruct (rdb_run_reads H Good env) as (ix & RO).
    destruct (nav_all_edges slt_order RO) as (l & E & ND & Hl).
    destruct (@nav_all_inbound _ _ _ _ _ _ _ _ slt_order RO t limit l Ends E) as (l' & E' & P). eauto.
  Qed.

  (** ** C45 *)
  Lemma rdb_created v o r s' : created v o r -> exec ops s o = (r, s') -> vertex_created v g (rgof dec s') /\
    good_history enc dec (h ++ [(env, o)]) /\ s' = rdb_run H enc dec (h ++ [(env, o)]).
  Proof.
    intros C E. conj.
    - destruct C as [[-> ->]|[-> ->]].
      + destruct (C02_rdb_create_vertex Good E) as [[_ X]|[(X & _)|(X & _)]]; [exact X|discriminate..].
      + destruct (C40_rdb_fresh Good E) as [[_ X]|[(X & _)|(X & _)]]; [destruct v; exact X|discriminate..].
    - apply Forall_app. split; [exact Good|]. constructor; [|constructor]. destruct C as [[-> _]|[-> _]]; exact I.
    - rewrite rdb_run_snoc. cbn [fst snd]. now rewrite E.
  Qed.

  Theorem C45_rdb_vertex_edges_partial v o r s' env' d limit t : created v o r -> exec ops s o = (r, s') ->
    (forall e, has_edge ops s e -> exists w, has_vertex ops s w /\ vid w = endpoint d e) ->
    db_get (rdb_ops H enc dec env') s' (q_edges_of (vid v) d limit t) = Ok [Edges []].
  Proof.
    intros C E Ends. destruct (rdb_created C E) as (VC & G' & ->).
    destruct (rdb_run_reads H Good env) as (ix & RO). destruct (rdb_run_reads H G' env') as (ix' & RO').
    destruct (nav_edges_of slt_order RO' (vid v) d t limit) as (l & -> & _ & Hl).
    destruct l as [|e l]; [unfold limited; now rewrite firstn_nil|]. exfalso.
    destruct (proj1 (Hl e) (or_introl eq_refl)) as (He & Ee & _). apply (has_edge_iff RO') in He. apply (vc_edges VC) in He.
    destruct (Ends e) as (w & Hw & Ew); [now apply (has_edge_iff RO)|]. apply (has_vertex_iff RO) in Hw.
    unfold is_vertex in Hw. rewrite Ew, Ee in Hw. pose proof (vc_new VC). congruence.
  Qed.
  Theorem C45_rdb_vertex_outbound_partial v o r s' env' limit t : no_bulk h -> created v o r -> exec ops s o = (r, s') ->
    db_get (rdb_ops H enc dec env') s' (q_edges_of (vid v) Outbound limit t) = Ok [Edges []].
  Proof. intros NB C E. eapply C45_rdb_vertex_edges_partial; eauto. intros e He. now apply rdb_outbound_end. Qed.
End RdbNav.

Section RdbBare.
  Variable H : list byte -> N.
  Variable enc : json -> bytes.
  Variable dec : bytes -> option json.
  Variable h : list (renv * op).
  Hypothesis Tidy : rtidy_history H enc dec h.
  Variable env : renv.
  Notation ops := (rdb_ops H enc dec env).
  Notation s := (rdb_run H enc dec h).

  Theorem C45_rdb_vertex_properties_partial v o r s' env' n : created v o r -> exec ops s o = (r, s') ->
    db_get (rdb_ops H enc dec env') s' (q_vprop (vid v) n) = Ok [VertexProperties []].
  Proof.
    intros C E. destruct (rdb_created H (rtidy_good Tidy) env C E) as (VC & G' & ->).
    rewrite (sh_vprop (rdb_shows H G' env')), (vc_vprops VC). destruct (get (vid v) _); [|reflexivity].
    destruct (get (vid v, n) (gvp (rgof dec s))) as [x|] eqn:G; [|reflexivity].
    apply (no_vorphan (rtidy_no_orphans Tidy)) in G. pose proof (vc_new VC) as N. apply mem_false in N. congruence.
  Qed.

  Theorem C45_rdb_edge_properties_partial e s' env' n : ~ has_edge ops s e ->
    exec ops s (OCreateEdge e) = (Ok (RBoolean true), s') ->
    db_get (rdb_ops H enc dec env') s' (q_edge e) = Ok [Edges [e]] /\
    db_get (rdb_ops H enc dec env') s' (q_eprop e n) = Ok [EdgeProperties []].
  Proof.
    intros NE E. destruct (C03_rdb_create_edge (rtidy_good Tidy) E) as [[_ EC]|[(X & _)|(X & _)]]; [|discriminate..].
    assert (good_history enc dec (h ++ [(env, OCreateEdge e)])) as G'.
    { apply Forall_app. split; [exact (rtidy_good Tidy)|]. constructor; [exact I|constructor]. }
    assert (s' = rdb_run H enc dec (h ++ [(env, OCreateEdge e)])) as -> by (rewrite rdb_run_snoc; cbn [fst snd]; now rewrite E).
    pose proof (rdb_shows H G' env') as Sh. rewrite (sh_edge Sh), (sh_eprop Sh), (ec_eprops EC).
    assert (mem e (ge (rgof dec (rdb_run H enc dec (h ++ [(env, OCreateEdge e)])))) = true) as -> by (apply (proj2 (ec_edges EC e)); now left).
    split; [reflexivity|]. destruct (get (e, n) (gep (rgof dec s))) as [x|] eqn:G; [|reflexivity].
    apply (no_eorphan (rtidy_no_orphans Tidy)) in G. elim NE.
    destruct (rdb_run_reads H (rtidy_good Tidy) env) as (ix & RO). now apply (has_edge_iff RO).
  Qed.
End RdbBare.

(** RocksDB: edges into a deleted vertex cannot be found from that end, and
    come back when a vertex with the same id is created. *)
Theorem C44_rdb_inbound_refuted : exists h e,
  good_history enc0 dec0 h /\ no_bulk h /\ has_edge ops0 (run0 h) e /\
  forall limit, db_get ops0 (run0 h) (q_edges_of (ein e) Inbound limit None) = Ok [Edges []].
Proof.
  exists (ok_calls [OCreateVertex v1; OCreateVertex v2; OCreateEdge e12; ODelete (q_vertex u2)]), e12.
  split; [good0|]. split; [repeat constructor; discriminate|]. split; [vm_compute; reflexivity|].
  intros limit. unfold q_edges_of, db_get.
  assert (query_exec ops0 (run0 (ok_calls [OCreateVertex v1; OCreateVertex v2; OCreateEdge e12; ODelete (q_vertex u2)]))
    (QSpecificVertex [ein e12]) [] = Ok [Vertices []]) as E by (vm_compute; reflexivity).
  remember (QSpecificVertex [ein e12]) as q eqn:Eq. cbn [query_exec]. rewrite E. subst q. reflexivity.
Qed.

Theorem C45_rdb_inbound_refuted : exists h v e,
  good_history enc0 dec0 h /\ no_bulk h /\
  db_get ops0 (run0 h) (q_vertex (vid v)) = Ok [Vertices []] /\
  fst (exec ops0 (run0 h) (OCreateVertex v)) = Ok (RBoolean true) /\
  db_get ops0 (run0 (h ++ [(ok_env, OCreateVertex v)])) (q_edges_of (vid v) Inbound 10 None) = Ok [Edges [e]].
Proof.
  exists (ok_calls [OCreateVertex v1; OCreateVertex v2; OCreateEdge e12; ODelete (q_vertex u2)]), v2, e12.
  split; [good0|]. split; [repeat constructor; discriminate|]. vm_compute. auto.
Qed.

(** Concrete cases meeting the hypotheses above. *)
Example C44_example :
  exists m, mem_run true (calls [OCreateVertex v1; OCreateVertex v2; OCreateVertex v3; OCreateEdge e12; OCreateEdge e21; OCreateEdge e23]) = Some m /\
  (has_edge (mem_ops true id_order) m e23 /\
  db_get (mem_ops true id_order) m (q_edges_of u2 Outbound 10 (Some t_likes)) = Ok [Edges [e21; e23]] /\
  db_get (mem_ops true id_order) m (q_edges_of u2 Inbound 10 None) = Ok [Edges [e12]] /\
  db_get (mem_ops true id_order) m (QPipe QAllVertex Outbound 2 None) = Ok [Edges [e12; e21]] /\
  db_get (mem_ops true id_order) m (QPipe QAllVertex Inbound 9 None) = Ok [Edges [e21; e12; e23]]).
Proof. apply run_with. vm_compute. auto. Qed.

Example C45_example :
  tidy_history true (calls h_people_2) /\ created v2 (OCreateVertex v2) (Ok (RBoolean true)) /\
  exists m, mem_run true (calls h_people_2) = Some m /\
  fst (exec (mem_ops true id_order) m (OCreateVertex v2)) = Ok (RBoolean true).
Proof. split; [apply api_tidy; reflexivity|]. split; [left; auto|]. apply run_with. vm_compute. auto. Qed.

Example C45_rdb_example :
  rtidy_history hash0 enc0 dec0 (ok_calls h_people_2) /\ no_bulk (ok_calls h_people_2) /\
  fst (exec ops0 (run0 (ok_calls h_people_2)) (OCreateVertex v2)) = Ok (RBoolean true) /\
  db_get ops0 (run0 (ok_calls (h_people_2 ++ [OCreateVertex v2]))) (q_edges_of u2 Outbound 5 None) = Ok [Edges []].
Proof.
  split; [apply api_rtidy; [good0|apply ok_steady|reflexivity]|]. split; [repeat constructor; discriminate|]. vm_compute. auto.
Qed.
