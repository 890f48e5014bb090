(** * The effect of every call in terms of what [get] returns.

    [request] says what a call returns and which update it asks for, given the
    graph and the answer [get] gives to the call's query.  Nothing is assumed
    about indexes here: whatever [get] returns is what [delete] and
    [set_properties] act on. *)
From Verif Require Import Base OMap Json Types Util Db Mem Rdb Spec QueryFacts SpecFacts QueryTrust JsonFacts UtilFacts
  MemFacts MemRefine MemHist KeyFacts RdbSpec RdbRep RdbWrite RdbPut RdbRefine RdbGraph RdbHist RdbCrash Stages.

Set Implicit Arguments.

Definition request {S} (ops : txn_ops S) (s : S) (g : graph) (o : op) : outcome res * action :=
  match o with
  | OCreateVertex v => (Ok (RBoolean (negb (mem (vid v) (gv g)))), ACreateVertex v)
  | OCreateVertexFromType id t =>
    if mem id (gv g) then (Err UuidTaken, ANone) else (Ok (RUuid id), ACreateVertex (Vertex id t))
  | OCreateEdge e => (Ok (RBoolean (mem (eout e) (gv g) && mem (ein e) (gv g))), ACreateEdge e)
  | OGet q => (omapo ROut (db_get ops s q), ANone)
  | ODelete q =>
    match answer ops s q with
    | Ok (Vertices vs) => (Ok RUnit, ADeleteVertices (map vid vs))
    | Ok (Edges es) => (Ok RUnit, ADeleteEdges es)
    | Ok (VertexProperties l) => (Ok RUnit, ADeleteVProps (vprop_keys l))
    | Ok (EdgeProperties l) => (Ok RUnit, ADeleteEProps (eprop_keys l))
    | Ok (Count _) => (Err OperationOnQuery, ANone)
    | Err e => (Err e, ANone)
    | Panic => (Panic, ANone)
    end
  | OSetProperties q n x =>
    match answer ops s q with
    | Ok (Vertices vs) => (Ok RUnit, ASetVProps (map vid vs) n x)
    | Ok (Edges es) => (Ok RUnit, ASetEProps es n x)
    | Ok _ => (Err OperationOnQuery, ANone)
    | Err e => (Err e, ANone)
    | Panic => (Panic, ANone)
    end
  | OBulkInsert items => (Ok RUnit, ABulk items)
  | OIndexProperty n => (Ok RUnit, AIndex n)
  | OSync => (Ok RUnit, ANone)
  | TDeleteVertices vs => (Ok RUnit, ADeleteVertices (map vid vs))
  | TDeleteEdges es => (Ok RUnit, ADeleteEdges es)
  | TDeleteVertexProperties ps => (Ok RUnit, ADeleteVProps ps)
  | TDeleteEdgeProperties ps => (Ok RUnit, ADeleteEProps ps)
  | TSetVertexProperties ids n x => (Ok RUnit, ASetVProps ids n x)
  | TSetEdgeProperties es n x => (Ok RUnit, ASetEProps es n x)
  end.

Section MemEffect.
  Variable dbg : bool.
  Variable ord : order.
  Notation ops := (mem_ops dbg ord).

  Theorem mem_effect m o r m' : mirror m ->
    exec ops m o = (r, m') -> r <> Panic ->
    r = fst (request ops m (gof m) o) /\ gof m' = g_apply (gof m) (snd (request ops m (gof m) o)).
  Proof.
    intros M. pose proof (mem_reads_ok dbg ord M) as RO.
    assert (forall (x : outcome unit * memory) g', steps dbg m x g' ->
             resw (fun _ => RUnit) x = (r, m') -> r <> Panic -> r = Ok RUnit /\ gof m' = g') as U.
    { intros [r1 m1] g' H E N. pose proof H as [(O & _) _]. cbn [fst] in O. destruct O as [->|[-> _]].
      - inversion E; subst. destruct (kept_ret H) as [-> K]. auto.
      - inversion E; subst. now elim N. }
    destruct o; cbn [exec request]; intros E N.
    - destruct (create_vertex_spec dbg m v) as [Ev H]. destruct (kept_ret H) as [G K].
      cbn in E. inversion E; subst. rewrite Ev, G. auto.
    - destruct (create_vertex_spec dbg m (Vertex id t)) as [Ev H]. destruct (kept_ret H) as [G K].
      unfold db_create_vertex_from_type in E. cbn in E.
      destruct (mem_create_vertex m (Vertex id t)) as [r1 m1]. cbn in Ev. subst r1. cbn [sbind snd] in *. cbn [gv gof].
      destruct (mem id (m_vertices m)) eqn:F; cbn in E; inversion E; subst; rewrite G; cbn [fst snd g_apply]; auto.
      unfold g_create_vertex. cbn. now rewrite F.
    - destruct (create_edge_spec dbg m e) as [Ev H]. destruct (kept_ret H) as [G K].
      cbn in E. inversion E; subst. rewrite Ev, G. auto.
    - inversion E; subst. auto.
    - rewrite (delete_answer lex_order RO) in E. destruct (answer ops m q) as [[l|l|l|l|l]|e|]; cbn in E |- *.
      + eapply U; [apply delete_vertices_spec|exact E|exact N].
      + eapply U; [apply delete_edges_spec|exact E|exact N].
      + inversion E; subst. auto.
      + eapply U; [apply steps_delete_vprops|exact E|exact N].
      + eapply U; [apply steps_delete_eprops|exact E|exact N].
      + inversion E; subst. auto.
      + inversion E; subst. now elim N.
    - rewrite (set_answer lex_order RO) in E. destruct (answer ops m q) as [[l|l|l|l|l]|e|]; cbn in E |- *;
        try (inversion E; subst; auto; fail); try (inversion E; subst; now elim N).
      + eapply U; [apply set_vprops_spec|exact E|exact N].
      + eapply U; [apply set_eprops_spec|exact E|exact N].
    - eapply U; [apply bulk_spec|exact E|exact N].
    - destruct (index_property_spec m name) as (E1 & G & _).
      cbn in E. inversion E; subst. split; [reflexivity|].
      match goal with |- gof ?x = _ => change x with (snd (mem_index_property m name)) end. exact G.
    - inversion E; subst. auto.
    - eapply U; [apply delete_vertices_spec|exact E|exact N].
    - eapply U; [apply delete_edges_spec|exact E|exact N].
    - eapply U; [apply steps_delete_vprops|exact E|exact N].
    - eapply U; [apply steps_delete_eprops|exact E|exact N].
    - eapply U; [apply set_vprops_spec|exact E|exact N].
    - eapply U; [apply set_eprops_spec|exact E|exact N].
  Qed.
End MemEffect.

Section RdbEffect.
  Variable H : list byte -> N.
  Variable enc : json -> bytes.
  Variable dec : bytes -> option json.
  Variable env : renv.
  Notation ops := (rdb_ops H enc dec env).

  Lemma rdb_effect_rep s L o r s' :
    rep H enc dec (r_db s) L -> good_op enc dec o -> exec ops s o = (r, s') ->
    r = fst (request ops s (gabs L (r_indexed s)) o) /\
    did H enc dec s L (snd (request ops s (gabs L (r_indexed s)) o)) s' \/
    io_failed env s o r s'.
  Proof.
    intros R GO. pose proof (rdb_reads_ok s R env) as RO.
    assert (forall a (x : outcome unit * rstate), performs H enc dec env s L a x ->
             resw (fun _ => RUnit) x = (r, s') ->
             (r = Ok RUnit /\ did H enc dec s L a s') \/ io_failed env s o r s') as U.
    { intros a [r1 s1] [[E1 D]|[E1 UN]] E; cbn [fst snd] in *; subst r1; inversion E; subst.
      - left. auto.
      - right. now apply undone_failed. }
    assert (did H enc dec s L ANone s) as DN by (apply did_none, R).
    destruct o; cbn [exec request]; intros E; cbn [good_op] in *.
    - destruct (create_vertex_performs env s R v) as [[Ev D]|[Ev UN]]; cbn in E; unfold resw in E; rewrite Ev in E;
        inversion E; subst.
      + left. split; [reflexivity|exact D].
      + right. now apply undone_failed.
    - destruct (create_vertex_performs env s R (Vertex id t)) as [[Ev D]|[Ev UN]];
        unfold db_create_vertex_from_type in E; cbn in E;
        destruct (rdb_create_vertex H env s (Vertex id t)) as [r1 s1]; cbn [fst snd] in *; subst r1; cbn [sbind] in E.
      + left. cbn [vid] in E. cbn [gabs gv]. destruct (mem id (l_v L)) eqn:F; cbn in E; inversion E; subst; cbn [fst snd].
        * split; [reflexivity|]. destruct D as (L' & R' & G' & K). exists L'. split; [assumption|].
          split; [|exact K]. rewrite G'. cbn. unfold g_create_vertex. cbn. now rewrite F.
        * split; [reflexivity|assumption].
      + inversion E; subst. right. now apply undone_failed.
    - destruct (create_edge_performs env s R e) as [[Ev D]|[Ev UN]]; cbn in E; unfold resw in E; rewrite Ev in E;
        inversion E; subst.
      + left. split; [reflexivity|exact D].
      + right. now apply undone_failed.
    - inversion E; subst. left. auto.
    - rewrite (delete_answer slt_order RO) in E. destruct (answer ops s q) as [[l|l|l|l|l]|e|]; cbn in E |- *;
        try (inversion E; subst; auto; fail).
      + eapply U; [apply (delete_vertices_performs env s R)|exact E].
      + eapply U; [apply (delete_edges_performs env s R)|exact E].
      + eapply U; [apply (delete_vprops_performs env s R)|exact E].
      + eapply U; [apply (delete_eprops_performs env s R)|exact E].
    - rewrite (set_answer slt_order RO) in E. destruct (answer ops s q) as [[l|l|l|l|l]|e|]; cbn in E |- *;
        try (inversion E; subst; auto; fail).
      + eapply U; [apply (set_vprops_performs env s R); exact GO|exact E].
      + eapply U; [apply (set_eprops_performs env s R); exact GO|exact E].
    - eapply U; [apply (bulk_performs env s R); exact GO|exact E].
    - destruct (index_performs env s R name) as [[Ev D]|(Ev & W & HD & I & M)]; cbn in E; unfold resw in E; rewrite Ev in E;
        inversion E; subst.
      + left. split; [reflexivity|exact D].
      + right. unfold io_failed. conj; auto. right. eauto.
    - cbn in E. unfold rdb_sync in E. destruct (wok env) eqn:W; cbn in E; inversion E; subst.
      + left. auto.
      + right. unfold io_failed. conj; auto.
    - eapply U; [apply (delete_vertices_performs env s R)|exact E].
    - eapply U; [apply (delete_edges_performs env s R)|exact E].
    - eapply U; [apply (delete_vprops_performs env s R)|exact E].
    - eapply U; [apply (delete_eprops_performs env s R)|exact E].
    - eapply U; [apply (set_vprops_performs env s R); exact GO|exact E].
    - eapply U; [apply (set_eprops_performs env s R); exact GO|exact E].
  Qed.

  Theorem rdb_effect h o r s' :
    good_history enc dec h -> good_op enc dec o -> exec ops (rdb_run H enc dec h) o = (r, s') ->
    r = fst (request ops (rdb_run H enc dec h) (rgof dec (rdb_run H enc dec h)) o) /\
    rgof dec s' = r_apply (rgof dec (rdb_run H enc dec h))
                          (snd (request ops (rdb_run H enc dec h) (rgof dec (rdb_run H enc dec h)) o)) \/
    io_failed env (rdb_run H enc dec h) o r s'.
  Proof.
    intros G GO E. destruct (run_rep H G) as (L & R & _).
    rewrite (rgof_rep (rdb_run H enc dec h) R).
    destruct (rdb_effect_rep (rdb_run H enc dec h) o R GO E) as [[Er (L' & R' & GA & _)]|F]; [left|right; assumption].
    rewrite (rgof_rep s' R'). auto.
  Qed.
End RdbEffect.
