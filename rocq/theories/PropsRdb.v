(** * Properties of the RocksDB database.

    [rdb_run H enc dec h] is the state after the calls [h] on a fresh database;
    each call comes with an environment saying whether RocksDB carries its
    write out.  [good_history]: every property value written survives the JSON
    serialiser ([dec (enc x) = Some x]).  [rgof dec s] is the stored graph,
    decoded from the column families; [rdb_shows] says that queries report
    exactly that graph.  [Err EDatastore] is a RocksDB failure. *)
From Verif Require Import Base OMap Json Types Util Db Mem Rdb Spec QueryFacts SpecFacts QueryTrust JsonFacts UtilFacts
  MemFacts MemRefine MemHist KeyFacts RdbSpec RdbRep RdbWrite RdbPut RdbRefine RdbGraph RdbHist RdbCrash Stages Effects
  Claims PropsMem.

Set Implicit Arguments.

(** Deleting vertices from RocksDB: only edges OUT of them go. *)
Record vertices_deleted_out (ids : list uuid) (g g' : graph) : Prop := {
  vo_vertices : forall id t, get id (gv g') = Some t <-> get id (gv g) = Some t /\ ~ In id ids;
  vo_edges : forall e, is_edge g' e <-> is_edge g e /\ ~ In (eout e) ids;
  vo_vprops : forall id n x, get (id, n) (gvp g') = Some x <-> get (id, n) (gvp g) = Some x /\ ~ In id ids;
  vo_eprops : forall e n x, get (e, n) (gep g') = Some x <->
    get (e, n) (gep g) = Some x /\ ~ (In (eout e) ids /\ (is_edge g e \/ is_edge g (reversed e)));
  vo_indexed : same_indexed g g' }.

Lemma r_delete_vertices_claim g ids : vertices_deleted_out ids g (r_delete_vertices g ids).
Proof.
  split; cbn.
  - intros id t. rewrite (get_filt_key (fun k => negb (inb k ids))), if_some, not_inb. tauto.
  - intros e. unfold is_edge. cbn. rewrite (mem_filt (fun k => negb (inb (eout k) ids))), andb_true_iff, not_inb. tauto.
  - intros id n x. rewrite (get_filt_key (fun k => negb (inb (fst k) ids))), if_some, not_inb. cbn. tauto.
  - intros e n x. rewrite (get_filt_key (fun k => negb (inb (eout (fst k)) ids && (mem (fst k) (ge g) || mem (reversed (fst k)) (ge g))))), if_some.
    cbn [fst]. rewrite negb_true_iff, <- not_true_iff_false, andb_true_iff, orb_true_iff, inb_In. unfold is_edge. tauto.
  - intros n. reflexivity.
Qed.

(** When nothing outside points into the deleted vertices, that is the full cascade. *)
Lemma deleted_out_closed ids g g' : vertices_deleted_out ids g g' ->
  (forall e, is_edge g e -> In (ein e) ids -> In (eout e) ids) ->
  (forall e n x, get (e, n) (gep g) = Some x -> is_edge g e) ->
  vertices_deleted ids g g'.
Proof.
  intros C Cl NO. split; try apply C.
  - intros e. rewrite (vo_edges C). split; [intros [He N]|tauto]. conj; auto.
  - intros e n x. rewrite (vo_eprops C). split; intros [Hx N]; (split; [assumption|]); pose proof (NO _ _ _ Hx) as He.
    + intros [_ [Ho|Hi]]; apply N; auto.
    + intros [Ho _]. tauto.
Qed.

(** The database is the same: contents and indexed names. *)
Notation same_db := RdbCrash.same.

Section Rdb.
  Variable H : list byte -> N.
  Variable enc : json -> bytes.
  Variable dec : bytes -> option json.
  Variable h : list (renv * op).
  Hypothesis Good : good_history enc dec h.
  Variable env : renv.
  Notation ops := (rdb_ops H enc dec env).
  Notation s := (rdb_run H enc dec h).
  Notation g := (rgof dec s).

  Lemma rdb_run_reads : exists ix, reads_ok ops s g slt (hm H) ix (fun _ => False).
  Proof.
    destruct (run_rep H Good) as (L & R & _). exists (rix_ok H L).
    rewrite (rgof_rep s R). apply rdb_reads_ok, R.
  Qed.

  Theorem rdb_shows : shows ops s g.
  Proof. destruct rdb_run_reads as (ix & RO). apply (reads_show RO). Qed.

  Lemma rdb_done o r s' : good_op enc dec o -> exec ops s o = (r, s') -> r <> Err EDatastore ->
    r = fst (request ops s g o) /\ rgof dec s' = r_apply g (snd (request ops s g o)).
  Proof.
    intros GO E N. destruct (@rdb_effect H enc dec env h o r s' Good GO E) as [D|(_ & F & _)]; [exact D|contradiction].
  Qed.

  (** ** C02 *)
  Theorem C02_rdb_create_vertex v r s' : exec ops s (OCreateVertex v) = (r, s') ->
    (r = Ok (RBoolean true) /\ vertex_created v g (rgof dec s')) \/
    (r = Ok (RBoolean false) /\ (exists t, get (vid v) (gv g) = Some t) /\ s' = s) \/
    (r = Err EDatastore /\ s' = s).
  Proof.
    intros E. pose proof (rdb_done (OCreateVertex v) I E) as D. cbn [request fst snd r_apply g_apply] in D.
    cbn [exec t_create_vertex rdb_ops] in E. unfold resw, rdb_create_vertex in E.
    destruct (vertex_exists H (r_db s) (vid v)); [|unfold write in E; destruct (wok env)]; cbn in E; inversion E; subst; clear E.
    - right. left. destruct D as [D _]; [discriminate|]. destruct (mem (vid v) (gv g)) eqn:M; [|discriminate].
      conj; auto. now apply mem_get.
    - left. destruct D as [D ->]; [discriminate|]. destruct (mem (vid v) (gv g)) eqn:M; [discriminate|].
      split; [reflexivity|]. apply create_vertex_claim. now apply mem_false.
    - auto.
  Qed.

  (** ** C03 *)
  Theorem C03_rdb_create_edge e r s' : exec ops s (OCreateEdge e) = (r, s') ->
    (r = Ok (RBoolean true) /\ edge_created e g (rgof dec s')) \/
    (r = Ok (RBoolean false) /\ (get (eout e) (gv g) = None \/ get (ein e) (gv g) = None) /\ s' = s) \/
    (r = Err EDatastore /\ s' = s).
  Proof.
    intros E. pose proof (rdb_done (OCreateEdge e) I E) as D. cbn [request fst snd r_apply g_apply] in D.
    cbn [exec t_create_edge rdb_ops] in E. unfold resw, rdb_create_edge in E.
    destruct (negb (vertex_exists H (r_db s) (eout e)) || negb (vertex_exists H (r_db s) (ein e)));
      [|unfold write in E; destruct (wok env)]; cbn in E; inversion E; subst; clear E.
    - right. left. destruct D as [D _]; [discriminate|]. destruct (mem (eout e) (gv g) && mem (ein e) (gv g)) eqn:M; [discriminate|].
      conj; auto. apply andb_false_iff in M as [M|M]; apply mem_false in M; auto.
    - left. destruct D as [D ->]; [discriminate|]. destruct (mem (eout e) (gv g) && mem (ein e) (gv g)) eqn:M; [|discriminate].
      split; [reflexivity|]. now apply create_edge_claim.
    - auto.
  Qed.

  (** Creating an existing edge again changes nothing. *)
  Theorem C03_rdb_idempotent e r s' : is_edge g e -> exec ops s (OCreateEdge e) = (r, s') ->
    rgof dec s' = g.
  Proof.
    intros He E. destruct (C03_rdb_create_edge E) as [[-> C]|[(_ & _ & ->)|[_ ->]]]; try reflexivity.
    destruct (rdb_done (OCreateEdge e) I E) as [_ ->]; [discriminate|]. cbn [request snd r_apply g_apply].
    unfold g_create_edge. destruct (_ && _); [|reflexivity]. rewrite (add_present e (ge g) He). now destruct g.
  Qed.

  (** ** C40 *)
  Theorem C40_rdb_fresh id t r s' : exec ops s (OCreateVertexFromType id t) = (r, s') ->
    (r = Ok (RUuid id) /\ vertex_created (Vertex id t) g (rgof dec s')) \/
    (r = Err UuidTaken /\ (exists t', get id (gv g) = Some t') /\ s' = s) \/
    (r = Err EDatastore /\ s' = s).
  Proof.
    intros E. cbn [exec] in E. unfold db_create_vertex_from_type in E. cbn [t_create_vertex rdb_ops] in E.
    destruct (rdb_create_vertex H env s (Vertex id t)) as [r1 s1] eqn:X.
    assert (exec ops s (OCreateVertex (Vertex id t)) = (omapo RBoolean r1, s1)) as X'.
    { cbn [exec t_create_vertex rdb_ops]. rewrite X. reflexivity. }
    destruct (C02_rdb_create_vertex X') as [[E1 C]|[(E1 & Ex & ->)|[E1 ->]]]; destruct r1 as [b|e|]; cbn in E1; inversion E1; subst;
      cbn in E; inversion E; subst; auto.
  Qed.

  (** ** C05, C06, C07: updates through queries *)
  Theorem C05_rdb_delete_vertices_partial q vs r s' : answer ops s q = Ok (Vertices vs) ->
    exec ops s (ODelete q) = (r, s') -> r <> Err EDatastore ->
    r = Ok RUnit /\ vertices_deleted_out (map vid vs) g (rgof dec s').
  Proof.
    intros A E N. destruct (rdb_done (ODelete q) I E N) as [-> ->]. cbn [request]. rewrite A. cbn [fst snd r_apply].
    split; [reflexivity|apply r_delete_vertices_claim].
  Qed.

  Lemma sub_edges es g' : (forall e, In e es -> is_edge g e -> mem (eout e) (gv g) = true) ->
    (forall e n x, get (e, n) (gep g) = Some x -> In e es -> is_edge g e) ->
    edges_deleted (filter (fun e => mem (eout e) (gv g)) es) g g' -> edges_deleted es g g'.
  Proof.
    intros Ex NO C. split; try apply C.
    - intros e. rewrite (ed_edges C), filter_In. split; intros [He N]; (split; [assumption|]); [|tauto].
      intros Hin. apply N. split; [assumption|]. now apply Ex.
    - intros e n x. rewrite (ed_eprops C), filter_In. split; intros [Hx N]; (split; [assumption|]); [|tauto].
      intros Hin. apply N. split; [assumption|]. apply Ex; [assumption|]. eapply NO; eauto.
  Qed.

  (** Without bulk insertion deleting edges is exact. *)
  Theorem C06_rdb_delete_edges_partial q es r s' : no_bulk h -> (forall e, In e es -> is_edge g e) ->
    answer ops s q = Ok (Edges es) ->
    exec ops s (ODelete q) = (r, s') -> r <> Err EDatastore ->
    r = Ok RUnit /\ edges_deleted es g (rgof dec s').
  Proof.
    intros NB Ex A E N. destruct (rdb_done (ODelete q) I E N) as [-> ->]. cbn [request]. rewrite A. cbn [fst snd r_apply].
    split; [reflexivity|]. destruct (run_rep H Good) as (L & R & _ & O). specialize (O NB).
    rewrite <- (rgof_rep s R) in O. apply sub_edges; auto. apply delete_edges_claim.
  Qed.

  (** In general: exact for the selected edges whose outbound vertex exists. *)
  Theorem C06_rdb_delete_edges_any_partial q es r s' :
    answer ops s q = Ok (Edges es) ->
    exec ops s (ODelete q) = (r, s') -> r <> Err EDatastore ->
    r = Ok RUnit /\ edges_deleted (filter (fun e => mem (eout e) (gv g)) es) g (rgof dec s').
  Proof.
    intros A E N. destruct (rdb_done (ODelete q) I E N) as [-> ->]. cbn [request]. rewrite A. cbn [fst snd r_apply].
    split; [reflexivity|]. apply delete_edges_claim.
  Qed.

  Theorem C07_rdb_set_vertices q n x vs r s' : lossless enc dec x -> answer ops s q = Ok (Vertices vs) ->
    exec ops s (OSetProperties q n x) = (r, s') -> r <> Err EDatastore ->
    r = Ok RUnit /\ vprops_set (map vid vs) n x g (rgof dec s').
  Proof.
    intros Lx A E N. destruct (rdb_done (OSetProperties q n x) Lx E N) as [-> ->]. cbn [request]. rewrite A. cbn [fst snd r_apply g_apply].
    split; [reflexivity|apply set_vprops_claim].
  Qed.

  Theorem C07_rdb_set_edges q n x es r s' : lossless enc dec x -> answer ops s q = Ok (Edges es) ->
    exec ops s (OSetProperties q n x) = (r, s') -> r <> Err EDatastore ->
    r = Ok RUnit /\ eprops_set es n x g (rgof dec s').
  Proof.
    intros Lx A E N. destruct (rdb_done (OSetProperties q n x) Lx E N) as [-> ->]. cbn [request]. rewrite A. cbn [fst snd r_apply g_apply].
    split; [reflexivity|apply set_eprops_claim].
  Qed.

  Theorem C07_rdb_delete_vprops q l r s' : answer ops s q = Ok (VertexProperties l) ->
    exec ops s (ODelete q) = (r, s') -> r <> Err EDatastore ->
    r = Ok RUnit /\ vprops_deleted (vprop_keys l) g (rgof dec s').
  Proof.
    intros A E N. destruct (rdb_done (ODelete q) I E N) as [-> ->]. cbn [request]. rewrite A. cbn [fst snd r_apply g_apply].
    split; [reflexivity|apply delete_vprops_claim].
  Qed.

  Theorem C07_rdb_delete_eprops q l r s' : answer ops s q = Ok (EdgeProperties l) ->
    exec ops s (ODelete q) = (r, s') -> r <> Err EDatastore ->
    r = Ok RUnit /\ eprops_deleted (eprop_keys l) g (rgof dec s').
  Proof.
    intros A E N. destruct (rdb_done (ODelete q) I E N) as [-> ->]. cbn [request]. rewrite A. cbn [fst snd r_apply g_apply].
    split; [reflexivity|apply delete_eprops_claim].
  Qed.

  (** ** C08: queries without index lookups *)
  Theorem C08_rdb_query q : index_names q = [] ->
    (exists ex v, db_get ops s q = Ok (ex ++ [v]) /\ evals slt (hm H) g q ex v) \/
    (exists e, db_get ops s q = Err e /\ fails slt (hm H) g q e).
  Proof.
    intros Hn. destruct rdb_run_reads as (ix & RO).
    destruct (db_get_ok slt_order RO q) as [A|[A|(_ & B)]]; auto.
    - rewrite Hn. intros n [].
    - now apply no_bad in B.
  Qed.

  (** ** C09 *)
  Theorem C09_rdb_range limit t start : exists l,
    listing vlt (fun v => is_vertex g v /\ type_ok t (vt v) /\
                          match start with Some id => ~ lt (vid v) id | None => True end) l /\
    db_get ops s (QRangeVertex limit t start) = Ok [Vertices (firstn (N.to_nat limit) l)].
  Proof. destruct rdb_run_reads as (ix & RO). apply (range_get slt_order RO). Qed.

  Theorem C09_rdb_pages k t : (0 < k)%N -> forall start,
    (exists l, pages (page ops s k t) start l) /\
    (forall l, pages (page ops s k t) start l ->
       listing vlt (fun v => is_vertex g v /\ type_ok t (vt v) /\ ~ lt (vid v) start) l).
  Proof.
    intros Hk start. destruct rdb_run_reads as (ix & RO). split.
    - apply (pages_exist slt_order RO). assumption.
    - intros l P. apply (pages_all slt_order RO Hk P).
  Qed.

  (** ** C10 *)
  Theorem C10_rdb_pipe_limit q d t small big : (small <= big)%N ->
    match answer ops s (QPipe q d big t) with
    | Ok (Edges es) => (lenN es <= big)%N /\ answer ops s (QPipe q d small t) = Ok (Edges (firstn (N.to_nat small) es))
    | Ok (Vertices vs) => (lenN vs <= big)%N /\ answer ops s (QPipe q d small t) = Ok (Vertices (firstn (N.to_nat small) vs))
    | other => answer ops s (QPipe q d small t) = other
    end.
  Proof. destruct rdb_run_reads as (ix & RO). apply (pipe_limit slt_order RO). Qed.

  (** ** C11 *)
  Theorem C11_rdb_includes q outs : db_get ops s q = Ok outs ->
    exists ex v, outs = ex ++ [v] /\ answer ops s q = Ok v /\
                 Forall2 (fun i o => answer ops s i = Ok o) (included q) ex.
  Proof. destruct rdb_run_reads as (ix & RO). apply (get_includes slt_order RO). Qed.

  Theorem C11_rdb_strip q n x :
    answer ops s (strip q) = answer ops s q /\
    exec ops s (ODelete (strip q)) = exec ops s (ODelete q) /\
    exec ops s (OSetProperties (strip q) n x) = exec ops s (OSetProperties q n x).
  Proof.
    destruct rdb_run_reads as (ix & RO).
    pose proof (strip_answer slt_order RO q) as A. split; [assumption|]. cbn [exec].
    rewrite !(delete_answer slt_order RO), !(set_answer slt_order RO), A. auto.
  Qed.

  (** ** C12 *)
  Theorem C12_rdb_count q : answer ops s (QCount q) =
    match answer ops s q with
    | Ok (Count _) => Err OperationOnQuery
    | Ok (Vertices l) => Ok (Count (lenN l))
    | Ok (Edges l) => Ok (Count (lenN l))
    | Ok (VertexProperties l) => Ok (Count (lenN l))
    | Ok (EdgeProperties l) => Ok (Count (lenN l))
    | Err e => Err e
    | Panic => Panic
    end.
  Proof.
    destruct rdb_run_reads as (ix & RO). rewrite (count_answer slt_order RO). destruct (answer ops s q) as [[]|e|]; reflexivity.
  Qed.

  (** ** C13 *)
  Theorem C13_rdb_built q : built q ->
    db_get ops s q <> Err OperationOnQuery /\ db_get ops s q <> Panic /\
    (output_type q <> Some KCount -> fst (exec ops s (ODelete q)) <> Err OperationOnQuery).
  Proof.
    intros B. destruct rdb_run_reads as (ix & RO).
    pose proof (well_kinded_answer slt_order RO q (built_well_kinded B)) as W. split; [|split].
    - destruct (get_cases slt_order RO q) as [(v & ex & _ & E & A)|[(e & _ & E & A)|(_ & E & A)]]; rewrite E; try discriminate.
      rewrite A in W. destruct W as [-> _]. discriminate.
    - intros E. destruct (answer_no_panic slt_order RO q) as (_ & ? & _ & []). unfold answer. now rewrite E.
    - intros NC E. destruct (exec ops s (ODelete q)) as [r s'] eqn:X. cbn in E. subst r.
      destruct (rdb_done (ODelete q) I X) as [Er _]; [discriminate|]. cbn [request] in Er.
      destruct (answer ops s q) as [[]|e|]; cbn in Er; try discriminate.
      + destruct W as [K _]. destruct (output_type q) as [[]|]; cbn in K; try discriminate; try contradiction;
          try (now elim NC); destruct K as [(? & K)|(? & K)]; discriminate.
      + inversion Er; subst. destruct W as [W _]. discriminate.
  Qed.

  (** ** C16 *)
  Lemma rdb_indexed n : indexed g n <-> indexed_by (map snd h) n.
  Proof.
    unfold indexed. cbn [rgof gix]. rewrite run_indexed. unfold index_calls, indexed_by.
    rewrite in_map_iff, in_flat_map. split.
    - intros (x & Hx & Hn). destruct (snd x) eqn:E; cbn in Hn; try contradiction. destruct Hn as [->|[]]. eauto.
    - intros (x & E & Hx). exists x. split; [assumption|]. rewrite E. cbn. auto.
  Qed.

  Theorem C16_rdb_not_indexed q :
    (db_get ops s q = Err NotIndexed -> exists n, In n (index_names q) /\ ~ indexed_by (map snd h) n) /\
    (built q ->
     (db_get ops s q = Err NotIndexed <-> exists n, In n (index_names q) /\ ~ indexed_by (map snd h) n)).
  Proof.
    destruct rdb_run_reads as (ix & RO).
    assert (db_get ops s q = Err NotIndexed -> exists n, In n (index_names q) /\ ~ indexed_by (map snd h) n) as S.
    { intros E. destruct (not_indexed_sound slt_order RO q) as (n & Hn & N).
      - unfold answer. now rewrite E.
      - exists n. split; [assumption|]. now rewrite <- rdb_indexed. }
    split; [exact S|]. intros B. split; [exact S|].
    intros (n & Hn & N). pose proof (well_kinded_answer slt_order RO q (built_well_kinded B)) as W.
    destruct (get_cases slt_order RO q) as [(v & ex & _ & E & A)|[(e & _ & E & A)|(_ & E & A)]]; rewrite A in W.
    - exfalso. apply N. apply rdb_indexed. now apply W.
    - destruct W as [-> _]. assumption.
    - destruct (answer_no_panic slt_order RO q) as (_ & ? & _ & []). assumption.
  Qed.

  (** ** C20: reading never fails for storage reasons, no call panics *)
  Theorem C20_rdb_reads q :
    (exists outs, db_get ops s q = Ok outs) \/ db_get ops s q = Err OperationOnQuery \/ db_get ops s q = Err NotIndexed.
  Proof.
    destruct (run_rep H Good) as (L & R & _). unfold db_get.
    destruct (@rdb_query_any H enc dec env s L q R) as [(v & rest & E)|(e & E & Q)]; rewrite E; cbn; eauto.
    destruct e; try contradiction; auto.
  Qed.

  Theorem C20_rdb_no_panic o : good_op enc dec o -> fst (exec ops s o) <> Panic.
  Proof.
    intros GO E. destruct (exec ops s o) as [r s'] eqn:X. cbn in E. subst r.
    destruct (@rdb_any_step H enc dec h env o Panic s' Good GO X) as [(a & _ & _ & P)|(_ & F & _)]; [|discriminate].
    destruct P as [(x & F)|(e & F & _)]; discriminate.
  Qed.

  (** Any call fails only with the four errors below. *)
  Theorem C20_rdb_errors o e : good_op enc dec o -> fst (exec ops s o) = Err e ->
    e = OperationOnQuery \/ e = NotIndexed \/ e = UuidTaken \/ (e = EDatastore /\ wok env = false).
  Proof.
    intros GO E. destruct (exec ops s o) as [r s'] eqn:X. cbn in E. subst r.
    destruct (@rdb_any_step H enc dec h env o (Err e) s' Good GO X) as [(a & _ & _ & P)|(W & F & _)].
    - destruct P as [(x & F)|(e' & F & Q & _)]; [discriminate|]. inversion F; subst.
      destruct Q as [Q| ->]; [destruct e'; try contradiction|]; auto.
    - inversion F. auto 6.
  Qed.

  (** ** C21: the two edge tables mirror each other *)
  Theorem C21_rdb_mirror a t b :
    mem (edge_key H (Edge a t b)) (d_edges (r_db s)) = mem (edge_key H (Edge b t a)) (d_reversed (r_db s)).
  Proof.
    destruct (run_rep H Good) as (L & R & _). rewrite (rep_mem _ (rp_e R)), (rep_mem _ (rp_r R)), (rp_mirror R). reflexivity.
  Qed.

  (** ** C22 *)
  Theorem C22_rdb_outbound e : no_bulk h -> is_edge g e -> exists t, get (eout e) (gv g) = Some t.
  Proof.
    intros NB He. destruct (run_rep H Good) as (L & R & _ & O). specialize (O NB). rewrite (rgof_rep s R) in *.
    apply mem_get. now apply O.
  Qed.

  (** ** C26: failed and read-only calls *)

  Theorem C26_rdb_get q r s' : exec ops s (OGet q) = (r, s') -> s' = s.
  Proof. cbn. intros E. now inversion E. Qed.
End Rdb.

(** ** C26: a failed call leaves the database as it was, except that a failed
    [index_property] adds its name to the set held in memory (in any state). *)
Theorem C26_rdb_failed H enc dec env s o e s' : exec (rdb_ops H enc dec env) s o = (Err e, s') ->
  s' = s \/
  exists n, o = OIndexProperty n /\ mem n (r_indexed s) = false /\ s' = RState (r_db s) (add n (r_indexed s)) (r_log s).
Proof.
  set (ops := rdb_ops H enc dec env).
  assert (forall x, resw (fun _ : unit => RUnit) (write_built env s x) = (Err e, s') -> s' = s) as W.
  { intros [b|e1|]; cbn; unfold write; [destruct (wok env)|..]; cbn; intros E; inversion E; reflexivity. }
  assert (forall v, forall r1 s1, rdb_create_vertex H env s v = (r1, s1) -> (exists e1, r1 = Err e1) -> s1 = s) as CV.
  { intros v r1 s1. unfold rdb_create_vertex, write. destruct (vertex_exists _ _ _); [|destruct (wok env)]; cbn; intros E (e1 & X); inversion E; subst; try discriminate; reflexivity. }
  destruct o; cbn [exec]; intros E; try (left; now apply (W _ E)).
  - left. cbn in E. destruct (rdb_create_vertex H env s v) as [r1 s1] eqn:X. cbn in E. inversion E; subst. eapply CV; eauto.
    destruct r1; cbn in *; try discriminate; eauto.
  - left. unfold db_create_vertex_from_type in E. cbn in E. unfold rdb_create_vertex, write in E.
    destruct (vertex_exists _ _ _); [|destruct (wok env)]; cbn in E; inversion E; auto.
  - left. cbn in E. unfold rdb_create_edge, write in E. destruct (_ || _); [|destruct (wok env)]; cbn in E; inversion E; auto.
  - left. now inversion E.
  - left. unfold db_delete in E. destruct (query_exec ops s q []) as [out|e1|]; cbn in E; try (inversion E; auto; fail).
    destruct (pop out) as [[v rest]|e1|]; cbn in E; try (inversion E; auto; fail).
    destruct v; try (now apply (W _ E)); inversion E; auto.
  - left. unfold db_set_properties in E. destruct (query_exec ops s q []) as [out|e1|]; cbn in E; try (inversion E; auto; fail).
    destruct (pop out) as [[v rest]|e1|]; cbn in E; try (inversion E; auto; fail).
    destruct v; try (now apply (W _ E)); inversion E; auto.
  - cbn in E. unfold rdb_index_property in E. destruct (mem name (r_indexed s)) eqn:M; [inversion E|].
    right. exists name. conj; auto. unfold write_built in E.
    destruct (let? _ := _ in _) as [b|e1|] in E; cbn in E; unfold write in E; [destruct (wok env)|..]; cbn in E; inversion E; auto.
  - left. cbn in E. unfold rdb_sync in E. destruct (wok env); inversion E; auto.
Qed.
