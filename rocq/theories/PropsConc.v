(** * Concurrent calls: C27 (memory), C28 (RocksDB), and what C20 and C21 say of
    concurrent histories.

    A history is the list of invocations and returns that an observer sees
    ([Conc.v], which also defines [linearizable]).  [reach] and [rreach] are the
    configurations reachable by any number of threads under any schedule. *)
From Verif Require Import Base OMap Json Types Util Db Mem Rdb Spec QueryFacts SpecFacts QueryTrust JsonFacts UtilFacts
  MemFacts MemRefine MemHist KeyFacts RdbSpec RdbRep RdbWrite RdbPut RdbRefine RdbGraph RdbHist RdbCrash Stages Effects
  Claims PropsMem Examples PropsMemIndex PropsRdb PropsRdbIndex Conc RdbProg RdbAlone RdbConc RdbLive RdbConcInv RdbCalm RdbSched RdbSerial
  Foot RdbFoot RdbApart.

Set Implicit Arguments.

(** ** C27: the in-memory datastore *)
Section Memory.
  Variable dbg : bool.
  Notation step := (mem_step dbg).
  Notation reached := (reach step (Some mem_empty)).

  Theorem C27_mem_linearizable k : reached k -> linearizable step (Some mem_empty) (hist k) (shared k).
  Proof. apply locked_linearizable. Qed.

  (** Hence at every moment the database is in a state some sequential history of
      the invoked calls leads to, so that everything proved of [mem_run] holds. *)
  Theorem C27_mem_state k : reached k -> exists h,
    mem_run dbg h = shared k /\ forall x, In x h -> exists c t, In (Inv c t (snd x)) (hist k).
  Proof.
    intros R. destruct (C27_mem_linearizable R) as [l X]. exists (map (fun c => (c_env c, c_op c)) l). split.
    - exact (sequential_run _ _ _ _ (ex_legal X)).
    - intros x Hx. apply in_map_iff in Hx as (y & <- & Hy). destruct (ex_sound X y Hy) as [(t & Ht) _]. cbn. eauto.
  Qed.

  (** In particular no edge ever dangles. *)
  Theorem C27_mem_no_dangling k m e : reached k -> shared k = Some m -> is_edge (gof m) e ->
    (exists t, get (eout e) (gv (gof m)) = Some t) /\ (exists t, get (ein e) (gv (gof m)) = Some t).
  Proof.
    intros R E He. destruct (C27_mem_state R) as (h & Hh & _). rewrite E in Hh.
    destruct (run_weak dbg h Hh) as (_ & _ & EP & _). destruct (EP e He) as [E1 E2]. now rewrite !mem_get in *.
  Qed.

  (** Calls that can remove vertices. *)
  Definition removes (o : op) : bool := match o with ODelete _ | TDeleteVertices _ => true | _ => false end.

  Lemma create_keeps g v id : mem id (gv g) = true -> mem id (gv (g_create_vertex g v)) = true.
  Proof.
    intros M. unfold g_create_vertex. destruct (mem (vid v) (gv g)); [exact M|]. cbn [gv]. rewrite mem_set, M. apply Bool.orb_true_r.
  Qed.

  Lemma bulk_keeps items id : forall g, mem id (gv g) = true -> mem id (gv (g_bulk_insert g items)) = true.
  Proof.
    induction items as [|it items IH]; intros g M; [exact M|]. cbn. apply IH. destruct it; cbn; auto.
    - unfold g_create_vertex. destruct (mem (vid v) (gv g)); [exact M|]. cbn. rewrite mem_set, M. apply Bool.orb_true_r.
    - unfold g_create_edge. now destruct (_ && _).
  Qed.

  Lemma step_keeps m e o r m' id : mirror m -> step (Some m) (e, o) = (r, Some m') -> removes o = false ->
    mem id (gv (gof m)) = true -> mem id (gv (gof m')) = true.
  Proof.
    intros Mi E Ro M. unfold mem_step in E. cbn [fst snd] in E. destruct (exec (mem_ops dbg e) m o) as [r1 m1] eqn:X.
    assert (r1 <> Panic /\ m1 = m') as [N ->] by (destruct r1; inversion E; subst; split; congruence).
    destruct (@mem_effect dbg e m o r1 m' Mi X N) as [_ ->].
    destruct o; cbn [removes] in Ro; try discriminate; cbn [request snd g_apply]; auto.
    - now apply create_keeps.
    - destruct (mem id0 (gv (gof m))); cbn [g_apply fst snd]; [exact M|]. now apply create_keeps.
    - unfold g_create_edge. now destruct (_ && _).
    - destruct (answer _ _ _) as [[]|e0|]; exact M.
    - now apply bulk_keeps.
  Qed.

  Lemma sequential_app {Sx Env} (st : Sx -> Env * op -> outcome res * Sx) l1 l2 : forall s s',
    sequential st s (l1 ++ l2) s' <-> exists s1, sequential st s l1 s1 /\ sequential st s1 l2 s'.
  Proof.
    induction l1 as [|x l IH]; intros s s'; cbn.
    - split; [eauto|]. now intros (s1 & -> & Q).
    - split.
      + intros (s1 & E & Q). apply IH in Q as (s2 & Q1 & Q2). eauto.
      + intros (s2 & (s1 & E & Q1) & Q2). exists s1. split; [exact E|]. apply IH. eauto.
  Qed.

  (** Of any number of concurrent [create_vertex] calls with one identifier, at
      most one returns true unless something is deleted. *)
  Theorem C27_mem_created_once k c c' t t' v v' : reached k -> vid v = vid v' -> c <> c' ->
    In (Inv c t (OCreateVertex v)) (hist k) -> In (Ret c (Ok (RBoolean true))) (hist k) ->
    In (Inv c' t' (OCreateVertex v')) (hist k) -> In (Ret c' (Ok (RBoolean true))) (hist k) ->
    exists c2 t2 o, In (Inv c2 t2 o) (hist k) /\ removes o = true.
  Proof.
    intros R Ev Ne I1 R1 I2 R2. destruct (C27_mem_linearizable R) as [l X].
    destruct (ex_complete X _ _ _ _ I1 R1) as (e & L1). destruct (ex_complete X _ _ _ _ I2 R2) as (e' & L2).
    destruct (existsb (fun c => removes (c_op c)) l) eqn:Ex.
    { apply existsb_exists in Ex as (y & Hy & Ry). destruct (ex_sound X y Hy) as [(t2 & Ht) _]. eauto 6. }
    exfalso.
    assert (forall a b c1 c2 e1 e2 v1 v2 l1 l2 l3, vid v1 = vid v2 -> a = Call c1 e1 (OCreateVertex v1) (Ok (RBoolean true)) ->
              b = Call c2 e2 (OCreateVertex v2) (Ok (RBoolean true)) -> l = l1 ++ a :: l2 ++ b :: l3 -> False) as Go.
    { intros a b c1 c2 e1 e2 w1 w2 l1 l2 l3 Ew -> -> ->. pose proof (ex_legal X) as Q.
      apply sequential_app in Q as (s1 & Q1 & (s2 & St1 & Q)). apply sequential_app in Q as (s3 & Q2 & (s4 & St2 & _)).
      cbn [c_env c_op c_res] in *.
      assert (forall h, Forall (fun c => removes (c_op c) = false) h -> forall s s', sequential step s h s' ->
                (exists h0 m, mem_run dbg h0 = s /\ s = Some m /\ mem (vid w1) (gv (gof m)) = true) ->
                (exists h0 m, mem_run dbg h0 = s' /\ s' = Some m /\ mem (vid w1) (gv (gof m)) = true) \/ s' = None) as Keep.
      { induction h as [|x h IH]; intros Fh s s' Q W; cbn in Q; [subst; auto|]. inversion Fh; subst.
        destruct Q as (s5 & E & Q). destruct W as (h0 & m & Hr & -> & Mm).
        destruct s5 as [m5|].
        - eapply IH; eauto. exists (h0 ++ [(c_env x, c_op x)]), m5. conj; auto.
          + rewrite mem_run_snoc, Hr, E. reflexivity.
          + destruct (run_weak dbg h0 Hr) as (_ & Mi & _). eapply step_keeps; eauto.
        - right. clear -Q. revert s' Q. induction h as [|y h IH]; intros s' Q; cbn in Q; [auto|].
          destruct Q as (s6 & E & Q). inversion E; subst. auto. }
      assert (mem_run dbg (map (fun c => (c_env c, c_op c)) l1) = s1) as Hs1 by exact (sequential_run _ _ _ _ Q1).
      destruct s1 as [m1|]; [|discriminate St1].
      destruct (run_weak dbg _ Hs1) as (_ & Mi1 & _).
      unfold mem_step in St1. cbn [fst snd] in St1. destruct (exec (mem_ops dbg e1) m1 (OCreateVertex w1)) as [r1 m2] eqn:X1.
      assert (r1 = Ok (RBoolean true) /\ s2 = Some m2) as [-> ->] by (destruct r1; inversion St1; subst; auto).
      destruct (@mem_effect dbg e1 m1 _ _ m2 Mi1 X1 ltac:(discriminate)) as [_ G2].
      assert (mem (vid w1) (gv (gof m2)) = true) as M2.
      { rewrite G2. cbn [request snd g_apply]. unfold g_create_vertex. destruct (mem (vid w1) (gv (gof m1))) eqn:M0; [exact M0|].
        cbn. rewrite mem_set, eqb_refl. reflexivity. }
      assert (Forall (fun c => removes (c_op c) = false) l2) as F2.
      { apply Forall_forall. intros x Hx. destruct (removes (c_op x)) eqn:Rx; [|reflexivity].
        assert (existsb (fun c => removes (c_op c)) (l1 ++ Call c1 e1 (OCreateVertex w1) (Ok (RBoolean true)) :: l2 ++ Call c2 e2 (OCreateVertex w2) (Ok (RBoolean true)) :: l3) = true) as Q.
        { apply existsb_exists. exists x. split; [|exact Rx]. apply in_or_app. right. right. apply in_or_app. now left. }
        rewrite Q in Ex. discriminate. }
      destruct (Keep l2 F2 _ _ Q2) as [(h3 & m3 & Hr3 & -> & M3)| ->].
      { exists (map (fun c => (c_env c, c_op c)) l1 ++ [(e1, OCreateVertex w1)]), m2. conj; auto.
        rewrite mem_run_snoc, Hs1. unfold mem_step. cbn [fst snd]. now rewrite X1. }
      2: discriminate St2.
      destruct (run_weak dbg _ Hr3) as (_ & Mi3 & _).
      unfold mem_step in St2. cbn [fst snd] in St2. destruct (exec (mem_ops dbg e2) m3 (OCreateVertex w2)) as [r2 m4] eqn:X2.
      assert (r2 = Ok (RBoolean true)) as -> by (destruct r2; inversion St2; subst; auto).
      destruct (@mem_effect dbg e2 m3 _ _ m4 Mi3 X2 ltac:(discriminate)) as [Er _].
      cbn [request fst] in Er. rewrite <- Ew, M3 in Er. discriminate. }
    apply in_split in L1 as (l1 & l2 & El). rewrite El in L2. apply in_app_or in L2 as [L2|[L2|L2]].
    - apply in_split in L2 as (l3 & l4 & ->). rewrite <- app_assoc in El. eapply Go; [..|exact El]; [symmetry; exact Ev|reflexivity|reflexivity].
    - inversion L2; subst. contradiction.
    - apply in_split in L2 as (l3 & l4 & ->). eapply Go; [..|exact El]; [exact Ev|reflexivity|reflexivity].
  Qed.

  (** While a call is in progress some call in progress can take a step. *)
  Theorem C27_mem_progress k t : reached k -> threads k t <> Idle ->
    exists t' k', threads k t' <> Idle /\ threads k' t' <> threads k t' /\ cstep step k k' /\ next k' = next k.
  Proof. apply locked_progress. exact id_order. Qed.
End Memory.

(** Two threads make a call at the same time: thread 1 gets the lock first,
    although thread 0 called first. *)
Lemma overtaken {Op Res Sx Env} (st : Sx -> Env * Op -> Res * Sx) s0 e o : exists k, reach st s0 k /\
  hist k = [Inv 0 0 o; Inv 1 1 o; Ret 0 (fst (st (snd (st s0 (e, o))) (e, o))); Ret 1 (fst (st s0 (e, o)))].
Proof.
  set (r1 := fst (st s0 (e, o))). set (s1 := snd (st s0 (e, o))). set (r0 := fst (st s1 (e, o))). set (s2 := snd (st s1 (e, o))).
  set (f0 := fun _ : nat => @Idle Op Res Sx). set (f1 := upd f0 0 (Waiting 0 o)). set (f2 := upd f1 1 (Waiting 1 o)).
  set (f3 := upd f2 1 (Inside 1 o s0)). set (f4 := upd f3 1 (Leaving 1 r1)). set (f5 := upd f4 0 (Inside 0 o s1)).
  set (f6 := upd f5 0 (Leaving 0 r0)). set (f7 := upd f6 0 Idle). set (f8 := upd f7 1 Idle).
  assert (reach st s0 (Config s0 None f1 [Inv 0 0 o] 1)) as K1 by (eapply ReachS; [apply Reach0|]; refine (StInvoke _ _ _ _ _); reflexivity).
  assert (reach st s0 (Config s0 None f2 [Inv 0 0 o; Inv 1 1 o] 2)) as K2 by (eapply ReachS; [exact K1|]; refine (StInvoke _ _ _ _ _); reflexivity).
  assert (reach st s0 (Config s0 (Some 1) f3 [Inv 0 0 o; Inv 1 1 o] 2)) as K3 by (eapply ReachS; [exact K2|]; refine (StAcquire _ _ _ _ _); reflexivity).
  assert (reach st s0 (Config s1 None f4 [Inv 0 0 o; Inv 1 1 o] 2)) as K4 by (eapply ReachS; [exact K3|]; refine (StRelease _ _ _ _ _); reflexivity).
  assert (reach st s0 (Config s1 (Some 0) f5 [Inv 0 0 o; Inv 1 1 o] 2)) as K5 by (eapply ReachS; [exact K4|]; refine (StAcquire _ _ _ _ _); reflexivity).
  assert (reach st s0 (Config s2 None f6 [Inv 0 0 o; Inv 1 1 o] 2)) as K6 by (eapply ReachS; [exact K5|]; refine (StRelease _ _ _ _ _); reflexivity).
  assert (reach st s0 (Config s2 None f7 [Inv 0 0 o; Inv 1 1 o; Ret 0 r0] 2)) as K7 by (eapply ReachS; [exact K6|]; refine (StReturn _ _ _ _); reflexivity).
  assert (reach st s0 (Config s2 None f8 [Inv 0 0 o; Inv 1 1 o; Ret 0 r0; Ret 1 r1] 2)) as K8 by (eapply ReachS; [exact K7|]; refine (StReturn _ _ _ _); reflexivity).
  eexists. split; [exact K8|reflexivity].
Qed.

Example C27_example : exists k, reach (mem_step true) (Some mem_empty) k /\
  hist k = [Inv 0 0 (OCreateVertex v1); Inv 1 1 (OCreateVertex v1); Ret 0 (Ok (RBoolean false)); Ret 1 (Ok (RBoolean true))].
Proof.
  destruct (overtaken (mem_step true) (Some mem_empty) id_order (OCreateVertex v1)) as (k & R & E). exists k. split; [exact R|]. rewrite E.
  assert (fst (mem_step true (Some mem_empty) (id_order, OCreateVertex v1)) = Ok (RBoolean true)) as -> by (vm_compute; reflexivity).
  assert (fst (mem_step true (snd (mem_step true (Some mem_empty) (id_order, OCreateVertex v1))) (id_order, OCreateVertex v1)) = Ok (RBoolean false)) as -> by (vm_compute; reflexivity).
  reflexivity.
Qed.

(** ** RocksDB *)
Section Rocks.
  Variable H : list byte -> N.
  Variable enc : json -> bytes.
  Variable dec : bytes -> option json.
  Variable E : renv -> Prop.
  Notation step := (rdb_step H enc dec).
  Notation ops := (rdb_ops H enc dec).

  (** The database and the set of indexed names at one moment. *)
  Definition at_ (k : rconfig) : rstate := RState (rc_db k) (rc_ix k) [].

  (** C21: at every moment of every concurrent execution, whatever the codec and
      whichever writes fail. *)
  Theorem C21_rdb_concurrent k a t b : rreach H enc dec E rdb_empty k ->
    mem (edge_key H (Edge a t b)) (d_edges (rc_db k)) = mem (edge_key H (Edge b t a)) (d_reversed (rc_db k)).
  Proof.
    intros R. assert (mirrored H (rc_db k)) as M; [|symmetry; exact (M (Edge a t b))].
    eapply (@calls_reach H enc dec (fun _ => True) (fun d _ => mirrored H d) (fun _ _ => True) True); eauto.
    - intros. apply trivial_reads.
    - intros. eapply mirrored_piece; eauto.
    - intros e. reflexivity.
    - intros c t' o _. destruct o; cbn; auto. apply Forall_forall. intros [] _; exact I.
  Qed.

  (** C20: no concurrent call panics or meets undecodable data; a call fails with
      [EDatastore] only if its write failed. *)
  Theorem C20_rdb_concurrent h k c r : good_history enc dec h -> rreach H enc dec E (rdb_run H enc dec h) k ->
    all_good (good_op enc dec) (rc_hist k) -> In (Ret c r) (rc_hist k) ->
    (exists x, r = Ok x) \/ r = Err OperationOnQuery \/ r = Err NotIndexed \/ r = Err UuidTaken \/
    (r = Err EDatastore /\ exists e, E e /\ wok e = false).
  Proof.
    intros G R A Hr. destruct (run_rep H G) as (L & RL & _).
    set (okerr := fun (e : renv) er => er = OperationOnQuery \/ er = NotIndexed \/ er = UuidTaken \/ (er = EDatastore /\ wok e = false)).
    destruct (@calls_reach H enc dec (lossless enc dec) (represented H enc dec) okerr False) with (E := E) (s := rdb_run H enc dec h) (k := k)
      as (_ & B & _); unfold okerr; auto 6.
    - intros e d ix [L' R']. eapply rep_reads_fine; eauto.
    - intros ix b d Pc [L' R']. destruct (rep_piece Pc R') as (L2 & R2 & _). now exists L2.
    - now exists L.
    - destruct (B c r Hr) as (e & Ee & F). destruct r as [x|er|]; cbn in F; [eauto| |contradiction].
      destruct F as [->|[->|[->|[-> W]]]]; eauto 8.
  Qed.

  (** At every moment a query without index lookups answers as specified for the
      graph stored at that moment. *)
  Theorem C28_rdb_state_queries_partial h k env q : good_history enc dec h -> rreach H enc dec E (rdb_run H enc dec h) k ->
    all_good (good_op enc dec) (rc_hist k) -> index_names q = [] ->
    (exists ex v, db_get (ops env) (at_ k) q = Ok (ex ++ [v]) /\ evals slt (hm H) (rgof dec (at_ k)) q ex v) \/
    (exists er, db_get (ops env) (at_ k) q = Err er /\ fails slt (hm H) (rgof dec (at_ k)) q er).
  Proof.
    intros G R A N. destruct (run_rep H G) as (L0 & RL & _).
    destruct (@calls_reach H enc dec (lossless enc dec) (represented H enc dec) (fun _ _ => True) False) with (E := E) (s := rdb_run H enc dec h) (k := k)
      as ((L & RL') & _); auto.
    - intros e d ix [L' R']. eapply rep_reads_fine; eauto.
    - intros ix b d Pc [L' R']. destruct (rep_piece Pc R') as (L2 & R2 & _). now exists L2.
    - now exists L0.
    - rewrite (rgof_rep (at_ k) RL').
      destruct (db_get_ok slt_order (rdb_reads_ok (at_ k) RL' env) q) as [B|[B|(_ & B)]]; auto.
      + rewrite N. intros n [].
      + now apply no_bad in B.
  Qed.

  (** Index entries are never missing: at every moment a lookup of a name that
      was indexed beforehand finds every element having the property. *)
  Section Complete.
    Variable h : list (renv * op).
    Variable k : rconfig.
    Variable n : ident.
    Hypothesis Tidy : rtidy_history H enc dec h.
    Hypothesis Ix : indexed_by (map snd h) n.
    Hypothesis R : rreach H enc dec E (rdb_run H enc dec h) k.
    Hypothesis Good : all_good (good_op enc dec) (rc_hist k).
    Variable env : renv.
    Notation g := (rgof dec (at_ k)).

    Lemma complete_reach : complete H enc dec n (rc_db k) (rc_ix k).
    Proof.
      destruct (run_rtidy Tidy) as (L0 & RL & X & _).
      eapply (@calls_reach H enc dec (lossless enc dec) (complete H enc dec n) (fun _ _ => True) False) with (E := E) (s := rdb_run H enc dec h); auto.
      - intros e d ix (_ & L' & R' & _). eapply rep_reads_fine; eauto.
      - intros. eapply complete_piece; eauto.
      - intros d ix n' (M & C) _. split; [|exact C]. rewrite mem_add, M. apply Bool.orb_true_r.
      - apply (rdb_indexed H enc dec h n) in Ix. unfold indexed in Ix. rewrite (rgof_rep _ RL) in Ix. cbn in Ix.
        split; [exact Ix|]. exists L0. split; [exact RL|]. destruct X as [X1 X2]. split; intros; [apply X1|apply X2]; eauto.
    Qed.

    Theorem C28_rdb_vertex_presence_complete_partial : exists l,
      db_get (ops env) (at_ k) (QVertexWithPropertyPresence n) = Ok [Vertices l] /\
      forall v x, is_vertex g v -> get (vid v, n) (gvp g) = Some x -> In v l.
    Proof.
      destruct complete_reach as (M & L & RL & Cv & Ce). rewrite (rgof_rep (at_ k) RL).
      unfold db_get. cbn [query_exec t_vertex_ids_with_property rdb_ops]. unfold rdb_vertex_ids_with_property. cbn [at_ r_indexed].
      rewrite M. cbn [indexed_or_err obind]. destruct (vvalues_for_name_rep (at_ k) RL n) as (ks & El & _ & Hin).
      cbn [at_ r_db] in El. cbn [at_ r_db]. rewrite El. unfold existing_ids.
      rewrite (filter_Ok (fun id => mem id (l_v L))) by (intros a; apply (vertex_exists_rep (at_ k) RL)).
      rewrite collect_Ok. cbn [obind]. rewrite (ro_specific_vertices (rdb_reads_ok (at_ k) RL env)). cbn [obind]. rewrite collect_Ok. cbn.
      eexists. split; [reflexivity|]. intros v x Hv Hx. apply in_found. split; [assumption|]. apply filter_In. split.
      - apply in_map_iff. exists (n, (hash8 H x, vid v)). split; [reflexivity|]. apply Hin. split; [|reflexivity]. now apply Cv.
      - apply mem_get. eauto.
    Qed.

    Theorem C28_rdb_vertex_value_complete_partial x : exists l,
      db_get (ops env) (at_ k) (QVertexWithPropertyValue n x) = Ok [Vertices l] /\
      forall v, is_vertex g v -> get (vid v, n) (gvp g) = Some x -> In v l.
    Proof.
      destruct complete_reach as (M & L & RL & Cv & Ce). rewrite (rgof_rep (at_ k) RL).
      unfold db_get. cbn [query_exec t_vertex_ids_with_property_value rdb_ops]. unfold rdb_vertex_ids_with_property_value. cbn [at_ r_indexed].
      rewrite M. cbn [indexed_or_err obind]. destruct (vvalues_for_value_rep (at_ k) RL n x) as (ks & El & _ & Hin).
      cbn [at_ r_db] in El. cbn [at_ r_db]. rewrite El. unfold existing_ids.
      rewrite (filter_Ok (fun id => mem id (l_v L))) by (intros a; apply (vertex_exists_rep (at_ k) RL)).
      rewrite collect_Ok. cbn [obind]. rewrite (ro_specific_vertices (rdb_reads_ok (at_ k) RL env)). cbn [obind]. rewrite collect_Ok. cbn.
      eexists. split; [reflexivity|]. intros v Hv Hx. apply in_found. split; [assumption|]. apply filter_In. split.
      - apply in_map_iff. exists (n, (hash8 H x, vid v)). split; [reflexivity|]. apply Hin. cbn [fst snd]. conj; auto.
      - apply mem_get. eauto.
    Qed.

    Theorem C28_rdb_edge_presence_complete_partial : exists l,
      db_get (ops env) (at_ k) (QEdgeWithPropertyPresence n) = Ok [Edges l] /\
      forall e x, get (e, n) (gep g) = Some x -> In e l.
    Proof.
      destruct complete_reach as (M & L & RL & Cv & Ce). rewrite (rgof_rep (at_ k) RL).
      unfold db_get. cbn [query_exec t_edges_with_property rdb_ops]. unfold rdb_edges_with_property. cbn [at_ r_indexed].
      rewrite M. cbn [indexed_or_err obind]. destruct (evalues_for_name_rep (at_ k) RL n) as (ks & El & _ & Hin).
      cbn [at_ r_db] in El. cbn [at_ r_db]. rewrite El, collect_Ok. cbn.
      eexists. split; [reflexivity|]. intros e x Hx. apply in_map_iff. exists (n, (hash8 H x, e)). split; [reflexivity|].
      apply Hin. split; [|reflexivity]. now apply Ce.
    Qed.

    Theorem C28_rdb_edge_value_complete_partial x : exists l,
      db_get (ops env) (at_ k) (QEdgeWithPropertyValue n x) = Ok [Edges l] /\
      forall e, get (e, n) (gep g) = Some x -> In e l.
    Proof.
      destruct complete_reach as (M & L & RL & Cv & Ce). rewrite (rgof_rep (at_ k) RL).
      unfold db_get. cbn [query_exec t_edges_with_property_value rdb_ops]. unfold rdb_edges_with_property_value. cbn [at_ r_indexed].
      rewrite M. cbn [indexed_or_err obind]. destruct (evalues_for_value_rep (at_ k) RL n x) as (ks & El & _ & Hin).
      cbn [at_ r_db] in El. cbn [at_ r_db]. rewrite El, collect_Ok. cbn.
      eexists. split; [reflexivity|]. intros e Hx. apply in_map_iff. exists (n, (hash8 H x, e)). split; [reflexivity|].
      apply Hin. cbn [fst snd]. conj; auto.
    Qed.
  End Complete.

  (** While a call holds the write guard of the set of indexed names (an
      [index_property] call), no other call holds a guard. *)
  Theorem C28_rdb_guard_exclusive_partial s k t t' : rreach H enc dec E s k -> t <> t' ->
    holds (rc_threads k t) GExcl -> ~ holds (rc_threads k t') GExcl /\ ~ holds (rc_threads k t') GShared.
  Proof.
    intros R. destruct (@calls_reach H enc dec (fun _ => True) (fun _ _ => True) (fun _ _ => True) True) with (E := E) (s := s) (k := k)
      as (_ & _ & X); auto.
    - intros. apply trivial_reads.
    - intros c t1 o _. destruct o; cbn; auto. apply Forall_forall. intros [] _; exact I.
    - apply X.
  Qed.

  (** No deadlock: from every reachable configuration the calls in progress can
      all return, without any new call. *)
  Theorem C28_rdb_can_finish_partial s k : rreach H enc dec E s k ->
    exists k', finishing H enc dec k k' /\ forall t, rc_threads k' t = RIdle.
  Proof. apply can_finish. Qed.

  (** Linearizability, as long as no update overlaps another call ([get]s may
      overlap each other); the general claim is false, see below. *)
  Theorem C28_rdb_linearizable_partial s k : rreach H enc dec E s k -> calm (rc_hist k) ->
    exists s', linearizable step s (rc_hist k) s' /\
      ((forall t, rc_threads k t = RIdle) -> r_db s' = rc_db k /\ r_indexed s' = rc_ix k).
  Proof. apply calm_linearizable. Qed.

  (** Calls of any kind may overlap, as long as (see [orderly] in RdbSerial.v)
      whenever a step changes the database, every other call in progress has
      finished its accesses or would have read the same so far from the changed
      database, and calls make no progress while [index_property] runs. *)
  Theorem C28_rdb_orderly_partial s k : oreach H enc dec E s k ->
    exists s', linearizable step s (rc_hist k) s' /\
      ((forall t, rc_threads k t = RIdle) -> r_db s' = rc_db k /\ r_indexed s' = rc_ix k).
  Proof. apply orderly_linearizable. Qed.

  (** With no condition on the schedule, only on which calls are made
      concurrently: calls that overlap in time do not interfere, that is, neither
      is [index_property] and neither can change a vertex, edge or property that
      the other depends on ([apart], [alters] and [depends] in Foot.v, stated for
      the API).  Calls that do not overlap may be anything. *)
  Theorem C28_rdb_apart_partial h k : rreach H enc dec E (rdb_run H enc dec h) k -> apart_when_concurrent (rc_hist k) ->
    exists s', linearizable step (rdb_run H enc dec h) (rc_hist k) s' /\
      ((forall t, rc_threads k t = RIdle) -> r_db s' = rc_db k /\ r_indexed s' = rc_ix k).
  Proof. intros R A. exact (@apart_linearizable H enc dec E _ k (run_keyed H enc dec h) R A). Qed.

  (** With no condition on the schedule: executions all of whose calls make at
      most one access to the database. *)
  Theorem C28_rdb_single_access_partial s k : rreach H enc dec E s k ->
    (forall c t o, In (Inv c t o) (rc_hist k) -> light o = true) ->
    exists s', linearizable step s (rc_hist k) s' /\
      ((forall t, rc_threads k t = RIdle) -> r_db s' = rc_db k /\ r_indexed s' = rc_ix k).
  Proof. intros R L. apply (@orderly_linearizable H enc dec s E). now apply light_orderly. Qed.
End Rocks.

(** ** C28 is false in general: concrete interleavings

    [schedule 2 l] runs two threads, step by step, as [l] says. *)
Definition ran (s : rstate) (l : list act) : rconfig :=
  match schedule hash0 enc0 dec0 2 l (rconfig0 s) with Some k => k | None => rconfig0 s end.
Definition runs (s : rstate) (l : list act) : bool :=
  match schedule hash0 enc0 dec0 2 l (rconfig0 s) with Some k => quiet 2 k | None => false end.
Definition all_ok (l : list act) : bool := forallb (fun a => match a with Begin _ e _ => wok e | Go _ _ => true end) l.
Notation succeeds := (fun e : renv => wok e = true).

Lemma ran_reach s l : runs s l = true -> all_ok l = true ->
  rreach hash0 enc0 dec0 succeeds s (ran s l) /\ forall t, rc_threads (ran s l) t = RIdle.
Proof.
  unfold runs, ran. intros Q A. destruct (schedule hash0 enc0 dec0 2 l (rconfig0 s)) as [k|] eqn:Sc; [|discriminate].
  destruct (@schedule_sound hash0 enc0 dec0 2 succeeds s l k Sc) as [R B].
  - intros t e o Hx. unfold all_ok in A. rewrite forallb_forall in A. exact (A _ Hx).
  - split; [exact R|]. now apply (@quiet_sound 2).
Qed.

(** The sequential explanations of a history of two calls that have returned. *)
Lemma two_calls {Sx Env} (st : Sx -> Env * op -> outcome res * Sx) s s' t0 t1 o0 o1 r0 r1 h l :
  explains st s h s' l -> (forall c t o, In (Inv c t o) h -> (c = 0 /\ o = o0) \/ (c = 1 /\ o = o1)) ->
  In (Inv 0 t0 o0) h -> In (Inv 1 t1 o1) h -> In (Ret 0 r0) h -> In (Ret 1 r1) h ->
  exists e0 e1, l = [Call 0 e0 o0 r0; Call 1 e1 o1 r1] \/ l = [Call 1 e1 o1 r1; Call 0 e0 o0 r0].
Proof.
  intros X Only I0 I1 R0 R1. destruct (ex_complete X _ _ _ _ I0 R0) as (e0 & L0). destruct (ex_complete X _ _ _ _ I1 R1) as (e1 & L1).
  exists e0, e1. assert (length l <= 2) as Ll.
  { rewrite <- (map_length (@c_id _ _ Env)). change 2 with (length [0; 1]). apply NoDup_incl_length; [exact (ex_once X)|].
    intros c Hc. apply in_map_iff in Hc as (x & <- & Hx). destruct (ex_sound X _ Hx) as [(t & Ht) _].
    destruct (Only _ _ _ Ht) as [[-> _]|[-> _]]; cbn; auto. }
  destruct l as [|a [|b [|]]]; cbn in Ll; try lia.
  - destruct L0.
  - exfalso. destruct L0 as [L0|[]], L1 as [F|[]]. congruence.
  - destruct L0 as [L0|[L0|[]]], L1 as [F|[F|[]]]; try congruence; subst; auto.
Qed.

Ltac only2 := intros ? ? ? Hx; repeat (destruct Hx as [Hx|Hx]; [inversion Hx; subst; auto|]); destruct Hx.

(** Two concurrent [create_vertex] calls with one identifier both report that
    they created the vertex: no sequential execution explains that. *)
Theorem C28_rdb_created_twice_refuted : exists k v,
  rreach hash0 enc0 dec0 succeeds rdb_empty k /\ (forall t, rc_threads k t = RIdle) /\
  rc_hist k = [Inv 0 0 (OCreateVertex v); Inv 1 1 (OCreateVertex v); Ret 0 (Ok (RBoolean true)); Ret 1 (Ok (RBoolean true))] /\
  forall s', ~ linearizable (rdb_step hash0 enc0 dec0) rdb_empty (rc_hist k) s'.
Proof.
  set (l := [Begin 0 ok_env (OCreateVertex v1); Begin 1 ok_env (OCreateVertex v1); Go 0 1; Go 1 1; Go 0 2; Go 1 2]).
  exists (ran rdb_empty l), v1.
  destruct (@ran_reach rdb_empty l) as [R Q]; [vm_compute; reflexivity|reflexivity|].
  assert (rc_hist (ran rdb_empty l) = [Inv 0 0 (OCreateVertex v1); Inv 1 1 (OCreateVertex v1); Ret 0 (Ok (RBoolean true)); Ret 1 (Ok (RBoolean true))]) as Hh by (vm_compute; reflexivity).
  conj; auto. intros s' [x X]. rewrite Hh in X.
  destruct (@two_calls _ _ _ _ _ 0 1 (OCreateVertex v1) (OCreateVertex v1) (Ok (RBoolean true)) (Ok (RBoolean true)) _ _ X ltac:(only2)
      ltac:(cbn; auto) ltac:(cbn; auto) ltac:(cbn; auto) ltac:(cbn; auto)) as ([w0 i0 p0] & [w1 i1 p1] & [-> | ->]);
  destruct (ex_legal X) as (s1 & E1 & s2 & E2 & _); cbn [c_env c_op c_res] in E1, E2; clear X;
  destruct w0, w1; try (apply (f_equal fst) in E1; vm_compute in E1; discriminate E1);
  apply (f_equal snd) in E1; cbn [snd] in E1; subst s1; apply (f_equal fst) in E2; vm_compute in E2; discriminate E2.
Qed.

(** Two concurrent [set_properties] calls on an indexed name leave a stale index
    entry: afterwards the lookup by the overwritten value finds the vertex.  No
    sequential execution of the two calls leads to a database answering so. *)
Theorem C28_rdb_stale_index_refuted : exists h k v n x y,
  rtidy_history hash0 enc0 dec0 h /\ indexed_by (map snd h) n /\
  rreach hash0 enc0 dec0 succeeds (run0 h) k /\ (forall t, rc_threads k t = RIdle) /\
  rc_hist k = [Inv 0 0 (OSetProperties (q_vertex (vid v)) n x); Inv 1 1 (OSetProperties (q_vertex (vid v)) n y);
               Ret 0 (Ok RUnit); Ret 1 (Ok RUnit)] /\
  json_eq x y = false /\
  db_get ops0 (at_ k) (q_vprop (vid v) n) = Ok [VertexProperties [VProps v [NProp n y]]] /\
  db_get ops0 (at_ k) (QVertexWithPropertyValue n x) = Ok [Vertices [v]] /\
  forall s', (forall q, db_get ops0 s' q = db_get ops0 (at_ k) q) ->
    ~ linearizable (rdb_step hash0 enc0 dec0) (run0 h) (rc_hist k) s'.
Proof.
  set (h := ok_calls [OCreateVertex v1; OIndexProperty n_name; OSetProperties (q_vertex u1) n_name j_true]).
  set (l := [Begin 0 ok_env (OSetProperties (q_vertex u1) n_name j_bob); Begin 1 ok_env (OSetProperties (q_vertex u1) n_name j_3);
             Go 0 3; Go 1 3; Go 0 2; Go 1 2]).
  exists h, (ran (run0 h) l), v1, n_name, j_bob, j_3.
  destruct (@ran_reach (run0 h) l) as [R Q]; [vm_compute; reflexivity|reflexivity|].
  assert (rc_hist (ran (run0 h) l) = [Inv 0 0 (OSetProperties (q_vertex u1) n_name j_bob); Inv 1 1 (OSetProperties (q_vertex u1) n_name j_3); Ret 0 (Ok RUnit); Ret 1 (Ok RUnit)]) as Hh by (vm_compute; reflexivity).
  assert (db_get ops0 (at_ (ran (run0 h) l)) (q_vprop (vid v1) n_name) = Ok [VertexProperties [VProps v1 [NProp n_name j_3]]]) as Q1 by (vm_compute; reflexivity).
  assert (db_get ops0 (at_ (ran (run0 h) l)) (QVertexWithPropertyValue n_name j_bob) = Ok [Vertices [v1]]) as Q2 by (vm_compute; reflexivity).
  conj; auto.
  - apply api_rtidy; [good0|apply ok_steady|reflexivity].
  - cbn. auto.
  - intros s' D [x X]. rewrite Hh in X.
    pose proof (D (q_vprop (vid v1) n_name)) as D1. pose proof (D (QVertexWithPropertyValue n_name j_bob)) as D2. rewrite Q1 in D1. rewrite Q2 in D2. clear D.
    destruct (@two_calls _ _ _ _ _ 0 1 (OSetProperties (q_vertex u1) n_name j_bob) (OSetProperties (q_vertex u1) n_name j_3) (Ok RUnit) (Ok RUnit) _ _ X ltac:(only2)
      ltac:(cbn; auto) ltac:(cbn; auto) ltac:(cbn; auto) ltac:(cbn; auto)) as ([w0 i0 p0] & [w1 i1 p1] & [-> | ->]);
    destruct (ex_legal X) as (s1 & E1 & s2 & E2 & Es); cbn [c_env c_op c_res] in E1, E2; clear X; cbn in Es; subst s2;
    destruct w0, w1; try (apply (f_equal fst) in E1; vm_compute in E1; discriminate E1);
    apply (f_equal snd) in E1; cbn [snd] in E1; subst s1;
    try (apply (f_equal fst) in E2; vm_compute in E2; discriminate E2);
    apply (f_equal snd) in E2; cbn [snd] in E2; subst s'; [vm_compute in D2; discriminate D2|vm_compute in D1; discriminate D1].
Qed.

(** [create_edge] racing the deletion of its outbound vertex leaves an edge whose
    outbound vertex does not exist (C04, C22), which no sequential execution of
    the two calls explains. *)
Theorem C28_rdb_dangling_edge_refuted : exists h k e,
  good_history enc0 dec0 h /\
  rreach hash0 enc0 dec0 succeeds (run0 h) k /\ (forall t, rc_threads k t = RIdle) /\
  rc_hist k = [Inv 0 0 (OCreateEdge e); Inv 1 1 (ODelete (q_vertex (eout e))); Ret 1 (Ok RUnit); Ret 0 (Ok (RBoolean true))] /\
  db_get ops0 (at_ k) (q_edge e) = Ok [Edges [e]] /\
  db_get ops0 (at_ k) (q_vertex (eout e)) = Ok [Vertices []] /\
  forall s', (forall q, db_get ops0 s' q = db_get ops0 (at_ k) q) ->
    ~ linearizable (rdb_step hash0 enc0 dec0) (run0 h) (rc_hist k) s'.
Proof.
  set (h := ok_calls [OCreateVertex v1; OCreateVertex v2]).
  set (l := [Begin 0 ok_env (OCreateEdge e12); Begin 1 ok_env (ODelete (q_vertex u1)); Go 0 3; Go 1 7; Go 0 2]).
  exists h, (ran (run0 h) l), e12.
  destruct (@ran_reach (run0 h) l) as [R Q]; [vm_compute; reflexivity|reflexivity|].
  assert (rc_hist (ran (run0 h) l) = [Inv 0 0 (OCreateEdge e12); Inv 1 1 (ODelete (q_vertex u1)); Ret 1 (Ok RUnit); Ret 0 (Ok (RBoolean true))]) as Hh by (vm_compute; reflexivity).
  assert (db_get ops0 (at_ (ran (run0 h) l)) (q_edge e12) = Ok [Edges [e12]]) as Q1 by (vm_compute; reflexivity).
  assert (db_get ops0 (at_ (ran (run0 h) l)) (q_vertex (eout e12)) = Ok [Vertices []]) as Q2 by (vm_compute; reflexivity).
  conj; auto.
  - good0.
  - intros s' D [x X]. rewrite Hh in X.
    pose proof (D (q_edge e12)) as D1. rewrite Q1 in D1. clear D.
    destruct (@two_calls _ _ _ _ _ 0 1 (OCreateEdge e12) (ODelete (q_vertex u1)) (Ok (RBoolean true)) (Ok RUnit) _ _ X ltac:(only2)
      ltac:(cbn; auto) ltac:(cbn; auto) ltac:(cbn; auto) ltac:(cbn; auto)) as ([w0 i0 p0] & [w1 i1 p1] & [-> | ->]);
    destruct (ex_legal X) as (s1 & E1 & s2 & E2 & Es); cbn [c_env c_op c_res] in E1, E2; clear X; cbn in Es; subst s2;
    destruct w0, w1; try (apply (f_equal fst) in E1; vm_compute in E1; discriminate E1);
    apply (f_equal snd) in E1; cbn [snd] in E1; subst s1;
    try (apply (f_equal fst) in E2; vm_compute in E2; discriminate E2);
    apply (f_equal snd) in E2; cbn [snd] in E2; subst s'; vm_compute in D1; discriminate D1.
Qed.

(** The hypotheses of the theorems above are met by histories in which calls do
    overlap. *)
Example C28_complete_example : exists h k,
  rtidy_history hash0 enc0 dec0 h /\ indexed_by (map snd h) n_name /\
  rreach hash0 enc0 dec0 succeeds (run0 h) k /\ all_good (good_op enc0 dec0) (rc_hist k) /\
  In (Inv 1 1 (OSetProperties (q_vertex u1) n_name j_3)) (rc_hist k) /\
  db_get ops0 (at_ k) (QVertexWithPropertyPresence n_name) = Ok [Vertices [v1; v1]].
Proof.
  set (h := ok_calls [OCreateVertex v1; OIndexProperty n_name; OSetProperties (q_vertex u1) n_name j_true]).
  set (l := [Begin 0 ok_env (OSetProperties (q_vertex u1) n_name j_bob); Begin 1 ok_env (OSetProperties (q_vertex u1) n_name j_3);
             Go 0 3; Go 1 3; Go 0 2; Go 1 2]).
  exists h, (ran (run0 h) l). destruct (@ran_reach (run0 h) l) as [R Q]; [vm_compute; reflexivity|reflexivity|].
  assert (rc_hist (ran (run0 h) l) = [Inv 0 0 (OSetProperties (q_vertex u1) n_name j_bob); Inv 1 1 (OSetProperties (q_vertex u1) n_name j_3); Ret 0 (Ok RUnit); Ret 1 (Ok RUnit)]) as Hh by (vm_compute; reflexivity).
  conj; auto.
  - apply api_rtidy; [good0|apply ok_steady|reflexivity].
  - cbn. auto.
  - rewrite Hh. intros c t o Hx. repeat (destruct Hx as [Hx|Hx]; [inversion Hx; subst; reflexivity|]). destruct Hx.
  - rewrite Hh. cbn. auto.
Qed.

Example C28_calm_example : exists k,
  rreach hash0 enc0 dec0 succeeds rdb_empty k /\ calm (rc_hist k) /\
  rc_hist k = [Inv 0 0 (OCreateVertex v1); Ret 0 (Ok (RBoolean true)); Inv 1 0 (OGet QAllVertex); Inv 2 1 (OGet QAllEdge);
               Ret 1 (Ok (ROut [Vertices [v1]])); Ret 2 (Ok (ROut [Edges []]))].
Proof.
  set (l := [Begin 0 ok_env (OCreateVertex v1); Go 0 3; Begin 0 ok_env (OGet QAllVertex); Begin 1 ok_env (OGet QAllEdge); Go 0 1; Go 1 1; Go 0 1; Go 1 1]).
  exists (ran rdb_empty l). destruct (@ran_reach rdb_empty l) as [R Q]; [vm_compute; reflexivity|reflexivity|].
  assert (rc_hist (ran rdb_empty l) = [Inv 0 0 (OCreateVertex v1); Ret 0 (Ok (RBoolean true)); Inv 1 0 (OGet QAllVertex); Inv 2 1 (OGet QAllEdge);
               Ret 1 (Ok (ROut [Vertices [v1]])); Ret 2 (Ok (ROut [Edges []]))]) as Hh by (vm_compute; reflexivity).
  conj; auto. rewrite Hh. clear. intros h1 c t o h2 E c' t' o' I N.
  repeat (destruct h1 as [|? h1]; [cbn in E; injection E; intros; subst; try discriminate;
    repeat (destruct I as [I|I]; [try discriminate I; injection I; intros; subst; first [split; reflexivity|exfalso; eapply N; cbn; eauto]|]); destruct I
   |cbn in E; injection E as <- E]).
  now destruct h1.
Qed.

(** An orderly execution in which updates overlap updates and [get]s: two calls
    create the same vertex at the same time (one of them succeeds), and a bulk
    insert overlaps a [get] that sees its effect. *)
Definition oran (s : rstate) (l : list act) : rconfig :=
  match orderly_schedule hash0 enc0 dec0 2 l [] (rconfig0 s) with Some k => k | None => rconfig0 s end.
Definition oruns (s : rstate) (l : list act) : bool :=
  match orderly_schedule hash0 enc0 dec0 2 l [] (rconfig0 s) with Some k => quiet 2 k | None => false end.
Lemma oran_reach s l : oruns s l = true -> all_ok l = true ->
  oreach hash0 enc0 dec0 succeeds s (oran s l) /\ forall t, rc_threads (oran s l) t = RIdle.
Proof.
  unfold oruns, oran. intros Q A. destruct (orderly_schedule hash0 enc0 dec0 2 l [] (rconfig0 s)) as [k|] eqn:Sc; [|discriminate].
  destruct (@orderly_schedule_sound hash0 enc0 dec0 2 succeeds s l [] (rconfig0 s) k Sc) as [R B].
  - intros t e o Hx. unfold all_ok in A. rewrite forallb_forall in A. exact (A _ Hx).
  - constructor.
  - intros t c e g p X. discriminate X.
  - intros t _. reflexivity.
  - easy.
  - split; [exact R|]. now apply (@quiet_sound 2).
Qed.

Example C28_orderly_example : exists k,
  oreach hash0 enc0 dec0 succeeds rdb_empty k /\ (forall t, rc_threads k t = RIdle) /\
  rc_hist k = [Inv 0 0 (OCreateVertex v1); Inv 1 1 (OCreateVertex v1); Ret 0 (Ok (RBoolean true));
               Inv 2 0 (OBulkInsert [BVertex v2]); Ret 1 (Ok (RBoolean false)); Inv 3 1 (OGet QAllVertex);
               Ret 3 (Ok (ROut [Vertices [v1; v2]])); Ret 2 (Ok RUnit)].
Proof.
  set (l := [Begin 0 ok_env (OCreateVertex v1); Begin 1 ok_env (OCreateVertex v1); Go 0 1; Go 0 1; Go 1 1; Go 0 1;
             Begin 0 ok_env (OBulkInsert [BVertex v2]); Go 0 1; Go 1 1; Begin 1 ok_env (OGet QAllVertex); Go 0 1; Go 1 1; Go 1 1; Go 0 1]).
  exists (oran rdb_empty l). destruct (@oran_reach rdb_empty l) as [R Q]; [vm_compute; reflexivity|reflexivity|].
  conj; auto.
Qed.

Lemma before_nth {A} (l : list A) i j x y : (i <? j) = true -> nth_error l i = Some x -> nth_error l j = Some y -> before l x y.
Proof.
  intros Lt Hi Hj. apply Nat.ltb_lt in Lt. destruct (nth_error_split _ _ Hj) as (l1 & l2 & -> & Ll). rewrite nth_error_app1 in Hi by lia.
  destruct (nth_error_split _ _ Hi) as (l3 & l4 & -> & _). exists l3, l4, l2. now rewrite <- app_assoc.
Qed.

Ltac bef := first [apply (@before_nth _ _ 2 4); reflexivity|apply (@before_nth _ _ 2 5); reflexivity
                  |apply (@before_nth _ _ 3 4); reflexivity|apply (@before_nth _ _ 3 5); reflexivity].

(** Calls whose accesses are interleaved, and which are apart: an edge is
    created while a property of one of its ends is set; then the other end is
    deleted while a property of a third vertex is read. *)
Example C28_apart_example : exists h k,
  rreach hash0 enc0 dec0 succeeds (run0 h) k /\ (forall t, rc_threads k t = RIdle) /\ apart_when_concurrent (rc_hist k) /\
  rc_hist k = [Inv 0 0 (OCreateEdge e12); Inv 1 1 (OSetProperties (q_vertex u1) n_name j_bob);
               Ret 1 (Ok RUnit); Ret 0 (Ok (RBoolean true)); Inv 2 0 (ODelete (q_vertex u2)); Inv 3 1 (OGet (q_vprop u1 n_name));
               Ret 2 (Ok RUnit); Ret 3 (Ok (ROut [VertexProperties [VProps v1 [NProp n_name j_bob]]]))].
Proof.
  set (h := ok_calls [OCreateVertex v1; OCreateVertex v2]).
  set (l := [Begin 0 ok_env (OCreateEdge e12); Begin 1 ok_env (OSetProperties (q_vertex u1) n_name j_bob); Go 0 1; Go 1 2; Go 0 1; Go 1 2; Go 0 3;
             Begin 0 ok_env (ODelete (q_vertex u2)); Begin 1 ok_env (OGet (q_vprop u1 n_name)); Go 0 1; Go 1 1; Go 0 7; Go 1 2]).
  exists h, (ran (run0 h) l). destruct (@ran_reach (run0 h) l) as [R Q]; [vm_compute; reflexivity|reflexivity|].
  match goal with |- _ /\ _ /\ _ /\ _ = ?y => assert (rc_hist (ran (run0 h) l) = y) as Hh by (vm_compute; reflexivity) end.
  assert (apart (OCreateEdge e12) (OSetProperties (q_vertex u1) n_name j_bob)) as A1.
  { split; [discriminate|split; [discriminate|]]. intros x. cbn. split.
    - intros -> [(y & (i & [<- |[]] & ->) & Hy)|(i & _ & Hy)]; discriminate.
    - intros (y & (i & [<- |[]] & ->) & Hy) [Hx|[Hx|Hx]]; cbn in Hy; congruence. }
  assert (apart (ODelete (q_vertex u2)) (OGet (q_vprop u1 n_name))) as A2.
  { split; [discriminate|split; [discriminate|]]. intros x. cbn. split; [|intros []].
    intros (y & (i & [<- |[]] & ->) & Hy) [(j & [<- |[]] & ->)|[(j & n & (j' & [<- |[]] & E1) & _ & ->)|(j & n & (j' & _ & E1) & _)]]; [| |discriminate E1].
    - destruct Hy as [Hy|[(n & Hy)|(e & _ & [Hy|(n & Hy)])]]; discriminate.
    - injection E1 as ->. destruct Hy as [Hy|[(m & Hy)|(e & _ & [Hy|(m & Hy)])]]; discriminate. }
  assert (forall o o', apart o o' -> apart o' o) as Sym by (intros o o' (N1 & N2 & D); split; [exact N2|split; [exact N1|]]; intros x; split; apply D).
  conj; auto. rewrite Hh. intros c t o c' t' o' I I' N.
  assert (forall h0 c0 t0 o0, h0 = rc_hist (ran (run0 h) l) -> In (Inv c0 t0 o0) h0 -> exists i, i < length h0 /\ nth_error h0 i = Some (Inv c0 t0 o0)) as Nth.
  { intros h0 c0 t0 o0 _ Hi. destruct (In_nth_error _ _ Hi) as (i & Hx). exists i. split; [|exact Hx]. apply nth_error_Some. congruence. }
  rewrite Hh in Nth. destruct (Nth _ _ _ _ eq_refl I) as (i & Li & Hi), (Nth _ _ _ _ eq_refl I') as (i' & Li' & Hi'). clear Nth I I'.
  cbn [length] in Li, Li'. clearbody h l. clear R Q Hh.
  do 8 (destruct i as [|i]; [cbn [nth_error] in Hi; try discriminate Hi; injection Hi as <- <- <-;
    do 8 (destruct i' as [|i']; [cbn [nth_error] in Hi'; try discriminate Hi'; injection Hi' as <- <- <-;
      first [destruct (N eq_refl)|right; right; first [exact A1|exact A2|apply Sym; first [exact A1|exact A2]]
            |left; eexists; bef|right; left; eexists; bef]|]);
    lia|]).
  lia.
Qed.

Example C28_single_access_example : exists k,
  rreach hash0 enc0 dec0 succeeds rdb_empty k /\ (forall c t o, In (Inv c t o) (rc_hist k) -> light o = true) /\
  rc_hist k = [Inv 0 0 (OBulkInsert [BVertex v1]); Inv 1 1 (OGet QAllVertex); Ret 0 (Ok RUnit);
               Inv 2 0 (OBulkInsert [BVertex v2]); Ret 2 (Ok RUnit); Ret 1 (Ok (ROut [Vertices [v1]]))].
Proof.
  set (l := [Begin 0 ok_env (OBulkInsert [BVertex v1]); Begin 1 ok_env (OGet QAllVertex); Go 0 2; Go 1 1; Go 0 1;
             Begin 0 ok_env (OBulkInsert [BVertex v2]); Go 0 3; Go 1 1]).
  exists (ran rdb_empty l). destruct (@ran_reach rdb_empty l) as [R Q]; [vm_compute; reflexivity|reflexivity|].
  assert (rc_hist (ran rdb_empty l) = [Inv 0 0 (OBulkInsert [BVertex v1]); Inv 1 1 (OGet QAllVertex); Ret 0 (Ok RUnit);
               Inv 2 0 (OBulkInsert [BVertex v2]); Ret 2 (Ok RUnit); Ret 1 (Ok (ROut [Vertices [v1]]))]) as Hh by (vm_compute; reflexivity).
  conj; auto. rewrite Hh. intros c t o Hx. repeat (destruct Hx as [Hx|Hx]; [inversion Hx; subst; reflexivity|]). destruct Hx.
Qed.
