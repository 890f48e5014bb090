(** * Properties of the in-memory database.

    [mem_run dbg h = Some m]: [m] is the state after the calls [h] on a fresh
    database, none of which panicked ([dbg]: debug assertions compiled in).
    [gof m] is the stored graph; [mem_shows] says that queries report exactly
    that graph, so every statement about [gof] is a statement about what [get]
    returns. *)
From Verif Require Import Base OMap Json Types Util Db Mem Rdb Spec QueryFacts SpecFacts QueryTrust JsonFacts UtilFacts
  MemFacts MemRefine MemHist RdbSpec RdbHist Stages Effects Claims.

Set Implicit Arguments.

Section Mem.
  Variable dbg : bool.
  Variable h : list (order * op).
  Variable m : memory.
  Hypothesis Run : mem_run dbg h = Some m.
  Variable ord : order.
  Notation ops := (mem_ops dbg ord).
  Notation g := (gof m).

  Lemma run_mirror : mirror m.
  Proof. now destruct (run_weak dbg h Run) as (_ & M & _). Qed.
  Lemma run_reads : reads_ok ops m g lt vm (ix_exact m) is_max.
  Proof. apply mem_reads_ok, run_mirror. Qed.

  (** Queries report exactly the stored graph. *)
  Theorem mem_shows : shows ops m g.
  Proof. apply (reads_show run_reads). Qed.

  (** ** C02 *)
  Theorem C02_mem_create_vertex v r m' : exec ops m (OCreateVertex v) = (r, m') ->
    (r = Ok (RBoolean true) /\ vertex_created v g (gof m')) \/
    (r = Ok (RBoolean false) /\ (exists t, get (vid v) (gv g) = Some t) /\ m' = m).
  Proof.
    intros E. cbn in E. unfold mem_create_vertex in E. destruct (get (vid v) (m_vertices m)) as [t|] eqn:G; inversion E; subst.
    - right. cbn. eauto.
    - left. split; [reflexivity|]. pose proof (create_vertex_claim g v G) as C.
      unfold g_create_vertex in C. cbn in C. apply mem_false in G. rewrite G in C. exact C.
  Qed.

  (** ** C03 *)
  Theorem C03_mem_create_edge e r m' : exec ops m (OCreateEdge e) = (r, m') ->
    (r = Ok (RBoolean true) /\ edge_created e g (gof m')) \/
    (r = Ok (RBoolean false) /\ (get (eout e) (gv g) = None \/ get (ein e) (gv g) = None) /\ m' = m).
  Proof.
    intros E. cbn in E. unfold mem_create_edge in E.
    destruct (mem (eout e) (m_vertices m)) eqn:E1, (mem (ein e) (m_vertices m)) eqn:E2; cbn in E; inversion E; subst.
    - left. split; [reflexivity|]. pose proof (create_edge_claim g e) as C. unfold g_create_edge in C. cbn in C.
      rewrite E1, E2 in C. apply C. reflexivity.
    - right. rewrite !mem_false in *. auto.
    - right. rewrite !mem_false in *. auto.
    - right. rewrite !mem_false in *. auto.
  Qed.

  (** Creating an existing edge again changes nothing. *)
  Theorem C03_mem_idempotent e r m' : is_edge g e -> exec ops m (OCreateEdge e) = (r, m') ->
    r = Ok (RBoolean true) /\ m' = m.
  Proof.
    intros He E. destruct (run_weak dbg h Run) as (_ & M & EP & _). destruct (EP e He) as [E1 E2]. cbn in E, E1, E2.
    unfold mem_create_edge in E. rewrite E1, E2 in E. cbn in E. inversion E; subst. split; [reflexivity|].
    unfold with_edges. unfold is_edge in He. cbn in He. pose proof (M (reversed e)) as R. rewrite reversed_invol, He in R.
    unfold add. rewrite (set_same e (m_edges m)) by now apply get_oset.
    rewrite (set_same (reversed e) (m_reversed m)) by now apply get_oset. now destruct m.
  Qed.

  (** ** C04, C06, C07: updates through queries *)
  Section Update.
    Variable q : query.

    Lemma mem_effect_run o r m' : exec ops m o = (r, m') -> r <> Panic ->
      r = fst (request ops m g o) /\ gof m' = g_apply g (snd (request ops m g o)).
    Proof. apply mem_effect, run_mirror. Qed.

    Theorem C04_mem_delete_vertices vs r m' : answer ops m q = Ok (Vertices vs) ->
      exec ops m (ODelete q) = (r, m') -> r <> Panic ->
      r = Ok RUnit /\ vertices_deleted (map vid vs) g (gof m').
    Proof.
      intros A E N. destruct (mem_effect_run _ E N) as [-> ->]. cbn [request]. rewrite A. cbn [fst snd g_apply].
      split; [reflexivity|apply delete_vertices_claim].
    Qed.

    Theorem C06_mem_delete_edges_partial es r m' : answer ops m q = Ok (Edges es) ->
      exec ops m (ODelete q) = (r, m') -> r <> Panic ->
      r = Ok RUnit /\ edges_deleted es g (gof m').
    Proof.
      intros A E N. destruct (mem_effect_run _ E N) as [-> ->]. cbn [request]. rewrite A. cbn [fst snd g_apply].
      split; [reflexivity|apply delete_edges_claim].
    Qed.

    Theorem C07_mem_set_vertices n x vs r m' : answer ops m q = Ok (Vertices vs) ->
      exec ops m (OSetProperties q n x) = (r, m') -> r <> Panic ->
      r = Ok RUnit /\ vprops_set (map vid vs) n x g (gof m').
    Proof.
      intros A E N. destruct (mem_effect_run _ E N) as [-> ->]. cbn [request]. rewrite A. cbn [fst snd g_apply].
      split; [reflexivity|apply set_vprops_claim].
    Qed.

    Theorem C07_mem_set_edges n x es r m' : answer ops m q = Ok (Edges es) ->
      exec ops m (OSetProperties q n x) = (r, m') -> r <> Panic ->
      r = Ok RUnit /\ eprops_set es n x g (gof m').
    Proof.
      intros A E N. destruct (mem_effect_run _ E N) as [-> ->]. cbn [request]. rewrite A. cbn [fst snd g_apply].
      split; [reflexivity|apply set_eprops_claim].
    Qed.

    Theorem C07_mem_delete_vprops l r m' : answer ops m q = Ok (VertexProperties l) ->
      exec ops m (ODelete q) = (r, m') -> r <> Panic ->
      r = Ok RUnit /\ vprops_deleted (vprop_keys l) g (gof m').
    Proof.
      intros A E N. destruct (mem_effect_run _ E N) as [-> ->]. cbn [request]. rewrite A. cbn [fst snd g_apply].
      split; [reflexivity|apply delete_vprops_claim].
    Qed.

    Theorem C07_mem_delete_eprops l r m' : answer ops m q = Ok (EdgeProperties l) ->
      exec ops m (ODelete q) = (r, m') -> r <> Panic ->
      r = Ok RUnit /\ eprops_deleted (eprop_keys l) g (gof m').
    Proof.
      intros A E N. destruct (mem_effect_run _ E N) as [-> ->]. cbn [request]. rewrite A. cbn [fst snd g_apply].
      split; [reflexivity|apply delete_eprops_claim].
    Qed.
  End Update.

  (** ** C01: no query returns a dangling edge, unless it starts from an edge
      property-presence lookup (see [C41]). *)
  Definition edges_in (v : outv) : list edge :=
    match v with Edges l => l | EdgeProperties l => map ep_edge l | _ => [] end.

  Lemma trust_outs q b outs : trust ops m g is_max q b [] -> db_get ops m q = Ok outs ->
    forall v, In v outs -> good g b v.
  Proof.
    unfold trust, db_get. intros T E v Hv. destruct (query_exec ops m q []) as [out|e|]; try discriminate.
    cbn in E. inversion E; subst. apply in_rev in Hv. destruct T as (w & rest & -> & Gw & Gr).
    destruct Hv as [<-|Hv]; [assumption|]. destruct (Gr v Hv) as [[]|]. assumption.
  Qed.

  Theorem C01_mem_no_dangling q outs v e :
    (forall n, leaf q <> QEdgeWithPropertyPresence n) ->
    db_get ops m q = Ok outs -> In v outs -> In e (edges_in v) ->
    is_edge g e /\ (exists t, get (eout e) (gv g) = Some t) /\ (exists t, get (ein e) (gv g) = Some t).
  Proof.
    intros NL E Hv He. destruct (run_weak dbg h Run) as (_ & M & EP & _).
    pose proof (@mem_query_trust dbg ord m q True M) as T.
    assert (is_edge g e) as Hg.
    { specialize (T (fun _ => match leaf q as l return (forall n, l <> QEdgeWithPropertyPresence n) ->
            match l with QEdgeWithPropertyPresence _ => False | _ => True end
          with QEdgeWithPropertyPresence n => fun N => N n eq_refl | _ => fun _ => I end NL)).
      pose proof (trust_outs q _ T E v Hv) as Gv. destruct v; cbn in He; try contradiction.
      - cbn in Gv. specialize (Gv I). rewrite Forall_forall in Gv. auto.
      - cbn in Gv. specialize (Gv I). rewrite Forall_forall in Gv. apply in_map_iff in He as (x & <- & Hx). auto. }
    split; [assumption|]. destruct (EP e Hg) as [E1 E2]. now rewrite !mem_get in *.
  Qed.

  (** Vertices returned by any query exist. *)
  Theorem C01_mem_vertices_exist q outs v w :
    db_get ops m q = Ok outs -> In v outs ->
    In w (match v with Vertices l => l | VertexProperties l => map vp_vertex l | _ => [] end) ->
    is_vertex g w.
  Proof.
    intros E Hv Hw. pose proof (@mem_query_trust dbg ord m q False run_mirror (fun f => match f with end)) as T.
    pose proof (trust_outs q _ T E v Hv) as Gv. destruct v; cbn in Hw, Gv; try contradiction; rewrite Forall_forall in Gv; auto.
    apply in_map_iff in Hw as (x & <- & Hx). auto.
  Qed.

  (** ** C08: queries without index lookups, any history, any build *)
  Theorem C08_mem_query q : index_names q = [] ->
    (exists ex v, db_get ops m q = Ok (ex ++ [v]) /\ evals lt vm g q ex v) \/
    (exists e, db_get ops m q = Err e /\ fails lt vm g q e) \/
    (db_get ops m q = Panic /\ hits_bad g lt vm is_max q).
  Proof. intros Hn. apply (db_get_ok lex_order run_reads). rewrite Hn. intros n []. Qed.

  (** ** C09 *)
  Theorem C09_mem_range limit t start : exists l,
    listing vlt (fun v => is_vertex g v /\ type_ok t (vt v) /\
                          match start with Some id => ~ lt (vid v) id | None => True end) l /\
    db_get ops m (QRangeVertex limit t start) = Ok [Vertices (firstn (N.to_nat limit) l)].
  Proof. apply (range_get lex_order run_reads). Qed.

  Theorem C09_mem_pages k t : (0 < k)%N -> forall start,
    (exists l, pages (page ops m k t) start l) /\
    (forall l, pages (page ops m k t) start l ->
       listing vlt (fun v => is_vertex g v /\ type_ok t (vt v) /\ ~ lt (vid v) start) l).
  Proof.
    intros Hk start. split.
    - apply (pages_exist lex_order run_reads). assumption.
    - intros l P. apply (pages_all lex_order run_reads Hk P).
  Qed.

  (** ** C10 *)
  Theorem C10_mem_pipe_limit q d t small big : (small <= big)%N ->
    match answer ops m (QPipe q d big t) with
    | Ok (Edges es) => (lenN es <= big)%N /\ answer ops m (QPipe q d small t) = Ok (Edges (firstn (N.to_nat small) es))
    | Ok (Vertices vs) => (lenN vs <= big)%N /\ answer ops m (QPipe q d small t) = Ok (Vertices (firstn (N.to_nat small) vs))
    | other => answer ops m (QPipe q d small t) = other
    end.
  Proof. apply (pipe_limit lex_order run_reads). Qed.

  (** ** C11 *)
  Theorem C11_mem_includes q outs : db_get ops m q = Ok outs ->
    exists ex v, outs = ex ++ [v] /\ answer ops m q = Ok v /\
                 Forall2 (fun i o => answer ops m i = Ok o) (included q) ex.
  Proof. apply (get_includes lex_order run_reads). Qed.

  Theorem C11_mem_strip q n x :
    answer ops m (strip q) = answer ops m q /\
    exec ops m (ODelete (strip q)) = exec ops m (ODelete q) /\
    exec ops m (OSetProperties (strip q) n x) = exec ops m (OSetProperties q n x).
  Proof.
    pose proof (strip_answer lex_order run_reads q) as A. split; [assumption|]. cbn [exec].
    rewrite !(delete_answer lex_order run_reads), !(set_answer lex_order run_reads), A. auto.
  Qed.

  (** ** C12 *)
  Theorem C12_mem_count q : answer ops m (QCount q) =
    match answer ops m q with
    | Ok (Count _) => Err OperationOnQuery
    | Ok (Vertices l) => Ok (Count (lenN l))
    | Ok (Edges l) => Ok (Count (lenN l))
    | Ok (VertexProperties l) => Ok (Count (lenN l))
    | Ok (EdgeProperties l) => Ok (Count (lenN l))
    | Err e => Err e
    | Panic => Panic
    end.
  Proof. rewrite (count_answer lex_order run_reads). destruct (answer ops m q) as [[]|e|]; reflexivity. Qed.

  (** ** C13 *)
  Theorem C13_mem_built q : built q ->
    db_get ops m q <> Err OperationOnQuery /\
    (db_get ops m q = Panic -> reads_all q = true /\ exists v, is_vertex g v /\ is_max (vid v)) /\
    (output_type q <> Some KCount -> fst (exec ops m (ODelete q)) <> Err OperationOnQuery).
  Proof.
    intros B. pose proof (well_kinded_answer lex_order run_reads q (built_well_kinded B)) as W. split; [|split].
    - destruct (get_cases lex_order run_reads q) as [(v & ex & _ & E & A)|[(e & _ & E & A)|(_ & E & A)]]; rewrite E; try discriminate.
      rewrite A in W. destruct W as [-> _]. discriminate.
    - intros E. apply (answer_no_panic lex_order run_reads). unfold answer. now rewrite E.
    - intros NC E. destruct (exec ops m (ODelete q)) as [r m'] eqn:X. cbn in E. subst r.
      destruct (mem_effect_run _ X) as [Er _]; [discriminate|]. cbn [request] in Er.
      destruct (answer ops m q) as [[]|e|]; cbn in Er; try discriminate.
      + destruct W as [K _]. destruct (output_type q) as [[]|]; cbn in K; try discriminate; try contradiction;
          try (now elim NC); destruct K as [(? & K)|(? & K)]; discriminate.
      + inversion Er; subst. destruct W as [W _]. discriminate.
  Qed.

  (** ** C16 *)
  Definition indexed_by (l : list op) (n : ident) : Prop := In (OIndexProperty n) l.

  Lemma C16_mem_indexed_aux n : indexed g n <-> indexed_by (map snd h) n.
  Proof.
    clear ord. revert m Run. induction h as [|x h' IH] using rev_ind; intros m' Run'.
    - cbn in Run'. inversion Run'; subst. unfold indexed, indexed_by. rewrite gof_empty. cbn. split; [discriminate|intros []].
    - rewrite mem_run_snoc in Run'. apply mem_step_Some in Run' as (m0 & r & E0 & E & N & _).
      destruct (run_weak dbg h' E0) as (_ & M & _).
      destruct (mem_effect dbg (fst x) (snd x) M E N) as [_ G]. unfold indexed_by in *. rewrite map_app, in_app_iff, <- (IH m0 E0), G.
      set (ops0 := mem_ops dbg (fst x)).
      assert (forall a, gix (g_apply (gof m0) a) = match a with AIndex n => add n (gix (gof m0)) | _ => gix (gof m0) end) as GI.
      { intros a. destruct a; try reflexivity; cbn [g_apply].
        - unfold g_create_vertex. now destruct (mem _ _).
        - unfold g_create_edge. now destruct (_ && _).
        - generalize (gof m0). induction items as [|it items IHi]; intros g0; [reflexivity|].
          unfold g_bulk_insert in *. cbn [fold_left]. rewrite IHi. destruct it; cbn; try reflexivity.
          + unfold g_create_vertex. now destruct (mem _ _).
          + unfold g_create_edge. now destruct (_ && _). }
      assert (forall k, snd (request ops0 m0 (gof m0) (snd x)) = AIndex k <-> snd x = OIndexProperty k) as RI.
      { intros k. destruct (snd x); cbn [request]; try (split; discriminate).
        - destruct (mem _ _); split; discriminate.
        - destruct (answer ops0 m0 q) as [[]| |]; split; discriminate.
        - destruct (answer ops0 m0 q) as [[]| |]; split; discriminate.
        - cbn. split; intros X; inversion X; reflexivity. }
      unfold indexed. rewrite GI. cbn [In map].
      destruct (snd (request ops0 m0 (gof m0) (snd x))) eqn:Ea;
        try (split; [auto|intros [Hl|[Hr|[]]]; [assumption|apply RI in Hr; discriminate]]).
      rewrite mem_add, orb_true_iff, eqb_eq. split.
      + intros [-> |]; auto. right. left. now apply RI.
      + intros [Hl|[Hr|[]]]; [auto|apply RI in Hr; inversion Hr; auto].
  Qed.

  (** Index names: exactly those [index_property] was called with. *)
  Theorem C16_mem_not_indexed q :
    (db_get ops m q = Err NotIndexed -> exists n, In n (index_names q) /\ ~ indexed_by (map snd h) n) /\
    (built q -> db_get ops m q <> Panic ->
     (db_get ops m q = Err NotIndexed <-> exists n, In n (index_names q) /\ ~ indexed_by (map snd h) n)).
  Proof.
    assert (db_get ops m q = Err NotIndexed -> exists n, In n (index_names q) /\ ~ indexed_by (map snd h) n) as S.
    { intros E. destruct (not_indexed_sound lex_order run_reads q) as (n & Hn & N).
      - unfold answer. now rewrite E.
      - exists n. split; [assumption|]. now rewrite <- C16_mem_indexed_aux. }
    split; [exact S|]. intros B NP. split; [exact S|].
    intros (n & Hn & N). pose proof (well_kinded_answer lex_order run_reads q (built_well_kinded B)) as W.
    destruct (get_cases lex_order run_reads q) as [(v & ex & _ & E & A)|[(e & _ & E & A)|(_ & E & A)]]; rewrite A in W.
    - exfalso. apply N. apply C16_mem_indexed_aux. now apply W.
    - destruct W as [-> _]. assumption.
    - contradiction.
  Qed.

  (** ** C25: bulk insert is item-by-item insertion (same state, same panics) *)
  Definition item_op (it : bulk_item) : op :=
    match it with
    | BVertex v => OCreateVertex v
    | BEdge e => OCreateEdge e
    | BVProp id n x => TSetVertexProperties [id] n x
    | BEProp e n x => TSetEdgeProperties [e] n x
    end.

  (** ** C26: failed and read-only calls *)
  Theorem C26_mem_failed o e m' : exec ops m o = (Err e, m') -> m' = m.
  Proof.
    assert (forall (x : outcome unit * memory) g', steps dbg m x g' -> resw (fun _ => RUnit) x = (Err e, m') -> m' = m) as U.
    { intros [r1 m1] g' H E. pose proof H as [(O & _) _]. cbn [fst] in O. destruct O as [->|[-> _]]; discriminate. }
    destruct o; cbn [exec]; intros E.
    - destruct (create_vertex_spec dbg m v) as [Ev _]. cbn in E. unfold resw in E. rewrite Ev in E. discriminate.
    - unfold db_create_vertex_from_type in E. cbn in E. unfold mem_create_vertex in E.
      destruct (get _ (m_vertices m)); cbn in E; inversion E; auto.
    - destruct (create_edge_spec dbg m e0) as [Ev _]. cbn in E. unfold resw in E. rewrite Ev in E. discriminate.
    - now inversion E.
    - rewrite (delete_answer lex_order run_reads) in E. destruct (answer ops m q) as [[l|l|l|l|l]|e1|]; cbn in E;
        try (inversion E; auto; fail).
      + eapply U; [apply delete_vertices_spec|exact E].
      + eapply U; [apply delete_edges_spec|exact E].
      + eapply U; [apply steps_delete_vprops|exact E].
      + eapply U; [apply steps_delete_eprops|exact E].
    - rewrite (set_answer lex_order run_reads) in E. destruct (answer ops m q) as [[l|l|l|l|l]|e1|]; cbn in E;
        try (inversion E; auto; fail).
      + eapply U; [apply set_vprops_spec|exact E].
      + eapply U; [apply set_eprops_spec|exact E].
    - eapply U; [apply bulk_spec|exact E].
    - cbn in E. discriminate.
    - cbn in E. discriminate.
    - eapply U; [apply delete_vertices_spec|exact E].
    - eapply U; [apply delete_edges_spec|exact E].
    - eapply U; [apply steps_delete_vprops|exact E].
    - eapply U; [apply steps_delete_eprops|exact E].
    - eapply U; [apply set_vprops_spec|exact E].
    - eapply U; [apply set_eprops_spec|exact E].
  Qed.

  Theorem C26_mem_get q r m' : exec ops m (OGet q) = (r, m') -> m' = m.
  Proof. cbn. intros E. now inversion E. Qed.

  (** ** C40 *)
  Theorem C40_mem_fresh id t r m' : exec ops m (OCreateVertexFromType id t) = (r, m') ->
    (r = Ok (RUuid id) /\ vertex_created (Vertex id t) g (gof m')) \/
    (r = Err UuidTaken /\ (exists t', get id (gv g) = Some t') /\ m' = m).
  Proof.
    intros E. cbn [exec] in E. unfold db_create_vertex_from_type in E. cbn [t_create_vertex mem_ops] in E.
    destruct (mem_create_vertex m (Vertex id t)) as [r1 m1] eqn:X.
    assert (exec ops m (OCreateVertex (Vertex id t)) = (omapo RBoolean r1, m1)) as X'.
    { cbn [exec t_create_vertex mem_ops]. rewrite X. reflexivity. }
    destruct (C02_mem_create_vertex X') as [[E1 C]|(E1 & Ex & ->)]; destruct r1 as [b| |]; cbn in E1; inversion E1; subst;
      cbn in E; inversion E; subst; auto.
  Qed.

  (** ** C17: panics *)
  Theorem C17_mem_panic_partial o m' : exec ops m o = (Panic, m') ->
    (dbg = true /\ ~ complete m) \/
    (exists q, op_query o = Some q /\ reads_all q = true /\ exists v, is_vertex g v /\ is_max (vid v)).
  Proof. apply exec_panic, run_mirror. Qed.
End Mem.

(** ** C25 *)
Theorem C25_mem_bulk_partial dbg ord m items :
  mem_step dbg (Some m) (ord, OBulkInsert items) =
  (if snd (mem_trace dbg (Some m) (map (fun it => (ord, item_op it)) items)) then Ok RUnit else Panic,
   snd (mem_trace dbg (Some m) (map (fun it => (ord, item_op it)) items))).
Proof.
  revert m. induction items as [|it items IH]; intros m; [reflexivity|].
  cbn [map mem_trace].
  assert (forall st, snd (mem_trace dbg None st) = None) as NP.
  { clear. induction st as [|x st IH]; [reflexivity|]. cbn. destruct (mem_trace dbg None st) as [rs s2] eqn:E. cbn in *. assumption. }
  assert (forall st (l : list (order * op)) r, (let (rs, st'') := mem_trace dbg st l in (r :: rs, st'')) =
            ((r : outcome res) :: fst (mem_trace dbg st l), snd (mem_trace dbg st l))) as TR.
  { intros st l r. now destruct (mem_trace dbg st l). }
  assert (forall {A} (x : outcome A * memory) (f : A -> res),
     (forall e, fst x <> Err e) ->
     resw (fun _ => RUnit) (sbind x (fun _ m1 => mem_bulk_insert dbg m1 items)) =
     match x with (Ok _, m1) => resw (fun _ => RUnit) (mem_bulk_insert dbg m1 items) | (_, m1) => (Panic, m1) end) as SB.
  { intros A [[a|e|] m1] f N; cbn; try reflexivity. now elim (N e). }
  unfold mem_step. cbn [fst snd exec t_bulk_insert mem_ops].
  assert (forall {A} (x : outcome A * memory) (f : A -> res),
     (forall e, fst x <> Err e) ->
     resw (fun _ => RUnit) (mem_bulk_insert dbg m (it :: items)) =
       resw (fun _ => RUnit) (sbind x (fun _ m1 => mem_bulk_insert dbg m1 items)) ->
     exec (mem_ops dbg ord) m (item_op it) = resw f x ->
     match resw (fun _ : unit => RUnit) (mem_bulk_insert dbg m (it :: items)) with
     | (Panic, _) => (Panic, None)
     | (r, m') => (r, Some m')
     end =
     (let (r, st') := match exec (mem_ops dbg ord) m (item_op it) with (Panic, _) => (Panic, None) | (r, m') => (r, Some m') end in
      (if snd (let (rs, st'') := mem_trace dbg st' (map (fun it => (ord, item_op it)) items) in (r :: rs, st'')) then Ok RUnit else Panic,
       snd (let (rs, st'') := mem_trace dbg st' (map (fun it => (ord, item_op it)) items) in (r :: rs, st''))))) as K.
  { intros A x f N E1 E2. rewrite E1, E2, (SB A x f N). destruct x as [[a|e|] m1]; cbn [resw fst snd omapo].
    - rewrite TR. cbn [snd]. specialize (IH m1). unfold mem_step in IH. cbn [fst snd exec t_bulk_insert mem_ops] in IH. exact IH.
    - now elim (N e).
    - rewrite TR. cbn [snd]. now rewrite NP. }
  destruct it as [v|e|id n x|e n x]; cbn [item_op] in *.
  - specialize (K _ (mem_create_vertex m v) RBoolean).
    destruct (exec (mem_ops dbg ord) m (OCreateVertex v)) as [r1 m1] eqn:X. 
    assert (forall e, fst (mem_create_vertex m v) <> Err e) as N by (unfold mem_create_vertex; destruct (get _ _); discriminate).
    specialize (K N eq_refl). cbn [exec t_create_vertex mem_ops] in X, K. rewrite <- X in K. specialize (K eq_refl).
    etransitivity; [exact K|]. now destruct r1.
  - specialize (K _ (mem_create_edge m e) RBoolean).
    destruct (exec (mem_ops dbg ord) m (OCreateEdge e)) as [r1 m1] eqn:X. 
    assert (forall e', fst (mem_create_edge m e) <> Err e') as N by (unfold mem_create_edge; destruct (_ || _); discriminate).
    specialize (K N eq_refl). cbn [exec t_create_edge mem_ops] in X, K. rewrite <- X in K. specialize (K eq_refl).
    etransitivity; [exact K|]. now destruct r1.
  - specialize (K _ (mem_set_vertex_properties dbg m [id] n x) (fun _ => RUnit)).
    destruct (exec (mem_ops dbg ord) m (TSetVertexProperties [id] n x)) as [r1 m1] eqn:X. 
    assert (forall e', fst (mem_set_vertex_properties dbg m [id] n x) <> Err e') as N.
    { intros e'. destruct (set_vprops_spec dbg m [id] n x) as [(O & _) _]. destruct O as [->|[-> _]]; discriminate. }
    specialize (K N eq_refl). cbn [exec t_set_vertex_properties mem_ops] in X, K. rewrite <- X in K. specialize (K eq_refl).
    etransitivity; [exact K|]. now destruct r1.
  - specialize (K _ (mem_set_edge_properties dbg m [e] n x) (fun _ => RUnit)).
    destruct (exec (mem_ops dbg ord) m (TSetEdgeProperties [e] n x)) as [r1 m1] eqn:X. 
    assert (forall e', fst (mem_set_edge_properties dbg m [e] n x) <> Err e') as N.
    { intros e'. destruct (set_eprops_spec dbg m [e] n x) as [(O & _) _]. destruct O as [->|[-> _]]; discriminate. }
    specialize (K N eq_refl). cbn [exec t_set_edge_properties mem_ops] in X, K. rewrite <- X in K. specialize (K eq_refl).
    etransitivity; [exact K|]. now destruct r1.
Qed.

(** ** C07, as seen through [get] *)
Section MemReads.
  Variable dbg : bool.
  Variable h : list (order * op).
  Variable m : memory.
  Hypothesis Run : mem_run dbg h = Some m.
  Variable ord : order.
  Notation ops := (mem_ops dbg ord).

  Lemma mem_shows_next o r m' ord' : exec ops m o = (r, m') -> r <> Panic -> shows (mem_ops dbg ord') m' (gof m').
  Proof.
    intros E N. apply (@mem_shows dbg (h ++ [(ord, o)])). rewrite mem_run_snoc, Run. unfold mem_step. cbn [fst snd].
    rewrite E. destruct r; [reflexivity|reflexivity|now elim N].
  Qed.

  Theorem C07_mem_set_vertices_reads q n x vs r m' ord' : answer ops m q = Ok (Vertices vs) ->
    exec ops m (OSetProperties q n x) = (r, m') -> r <> Panic ->
    (forall v, In v vs -> db_get (mem_ops dbg ord') m' (q_vprop (vid v) n) = Ok [VertexProperties [VProps v [NProp n x]]]) /\
    (forall id n', ~ (In id (map vid vs) /\ n' = n) ->
       db_get (mem_ops dbg ord') m' (q_vprop id n') = db_get ops m (q_vprop id n')) /\
    (forall e n', db_get (mem_ops dbg ord') m' (q_eprop e n') = db_get ops m (q_eprop e n')).
  Proof.
    intros A E N. destruct (@C07_mem_set_vertices dbg h m Run ord q n x vs r m' A E N) as [_ C].
    destruct (set_vprops_reads (@mem_shows dbg h m Run ord) (@mem_shows_next _ r m' ord' E N) C) as (C1 & C2 & C3).
    conj; [|exact C2|exact C3]. intros v Hv. apply C1; [now apply in_map|].
    unfold answer in A. destruct (db_get ops m q) as [outs|e|] eqn:G; try discriminate.
    destruct (@C11_mem_includes dbg h m Run ord q outs G) as (ex & w & -> & A' & _). rewrite rev_app_distr in A. cbn in A. inversion A; subst w.
    eapply (@C01_mem_vertices_exist dbg h m Run ord q _ _ _ G); [apply in_or_app; right; left; reflexivity|]. exact Hv.
  Qed.

  Theorem C07_mem_set_edges_reads q n x es r m' ord' : answer ops m q = Ok (Edges es) ->
    exec ops m (OSetProperties q n x) = (r, m') -> r <> Panic ->
    (forall e, In e es -> is_edge (gof m) e ->
       db_get (mem_ops dbg ord') m' (q_eprop e n) = Ok [EdgeProperties [EProps e [NProp n x]]]) /\
    (forall e n', ~ (In e es /\ n' = n) ->
       db_get (mem_ops dbg ord') m' (q_eprop e n') = db_get ops m (q_eprop e n')) /\
    (forall id n', db_get (mem_ops dbg ord') m' (q_vprop id n') = db_get ops m (q_vprop id n')).
  Proof.
    intros A E N. destruct (@C07_mem_set_edges dbg h m Run ord q n x es r m' A E N) as [_ C].
    apply (set_eprops_reads (@mem_shows dbg h m Run ord) (@mem_shows_next _ r m' ord' E N) C).
  Qed.

  Theorem C07_mem_delete_vprops_reads q l r m' ord' : answer ops m q = Ok (VertexProperties l) ->
    exec ops m (ODelete q) = (r, m') -> r <> Panic ->
    (forall id n, In (id, n) (vprop_keys l) -> db_get (mem_ops dbg ord') m' (q_vprop id n) = Ok [VertexProperties []]) /\
    (forall id n, ~ In (id, n) (vprop_keys l) ->
       db_get (mem_ops dbg ord') m' (q_vprop id n) = db_get ops m (q_vprop id n)) /\
    (forall e n, db_get (mem_ops dbg ord') m' (q_eprop e n) = db_get ops m (q_eprop e n)).
  Proof.
    intros A E N. destruct (@C07_mem_delete_vprops dbg h m Run ord q l r m' A E N) as [_ C].
    apply (delete_vprops_reads (@mem_shows dbg h m Run ord) (@mem_shows_next _ r m' ord' E N) C).
  Qed.

  Theorem C07_mem_delete_eprops_reads q l r m' ord' : answer ops m q = Ok (EdgeProperties l) ->
    exec ops m (ODelete q) = (r, m') -> r <> Panic ->
    (forall e n, In (e, n) (eprop_keys l) -> db_get (mem_ops dbg ord') m' (q_eprop e n) = Ok [EdgeProperties []]) /\
    (forall e n, ~ In (e, n) (eprop_keys l) ->
       db_get (mem_ops dbg ord') m' (q_eprop e n) = db_get ops m (q_eprop e n)) /\
    (forall id n, db_get (mem_ops dbg ord') m' (q_vprop id n) = db_get ops m (q_vprop id n)).
  Proof.
    intros A E N. destruct (@C07_mem_delete_eprops dbg h m Run ord q l r m' A E N) as [_ C].
    apply (delete_eprops_reads (@mem_shows dbg h m Run ord) (@mem_shows_next _ r m' ord' E N) C).
  Qed.
End MemReads.
