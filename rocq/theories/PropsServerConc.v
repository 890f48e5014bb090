(** * C49, continued: concurrent clients of a server over RocksDB. *)
From Verif Require Import Base OMap Json Types Util Db Mem Rdb Spec QueryFacts MemFacts MemHist Claims PropsMem Examples
  KeyFacts MsgPack RdbGraph RdbRep RdbPut RdbRefine RdbHist PropsRdb PropsRdbIndex Proto ProtoFacts Server PropsProto Conc PropsConc PluginProg PropsServer
  RdbSched RdbSerial Foot RdbApart ServerConc.
From Verif Require RdbProg RdbLive.

Set Implicit Arguments.
Local Open Scope list_scope.
Local Notation bytes := (list byte).

(** What the clients of a server see is the list of requests and responses in
    the order in which they arrive and are sent ([seen]).  A request that was
    answered before another one arrived does not overlap it. *)
Definition answered_before (l : list jevent) (c d : nat) : Prop :=
  exists r rq f, before l (JResp c r) (JReq d rq f).

Section Server.
  Variable H : bytes -> N.
  Variable alnum : N -> bool.
  Variable enc : json -> bytes.
  Variable dec : bytes -> option json.
  Variable E : renv -> Prop.
  Notation call_of := (request_op alnum dec).
  Notation sreach := (sreach H alnum enc dec E).
  Notation one_by_one := (srv_step H alnum enc dec).

  (** Requests that overlap in time make calls that do not interfere (Foot.v). *)
  Definition requests_apart (l : list jevent) : Prop :=
    forall c rq f o c' rq' f' o', In (JReq c rq f) l -> In (JReq c' rq' f') l -> c <> c' ->
      call_of f rq = Some o -> call_of f' rq' = Some o' ->
      answered_before l c c' \/ answered_before l c' c \/ apart o o'.

  (** If so, then whatever the interleaving, the requests can be put in an order
      that explains all responses and agrees with real time; and once no handler
      is at work, the database is the one that order leads to. *)
  Theorem C49_rocksdb_apart_partial (e0 : renv) h k : sreach (rdb_run H enc dec h) k -> requests_apart (s_log k) ->
    exists s', linearizable one_by_one (rdb_run H enc dec h) (seen (s_log k)) s' /\
      ((forall t, RdbProg.rc_threads (s_lib k) t = RdbProg.RIdle) -> r_db s' = RdbProg.rc_db (s_lib k) /\ r_indexed s' = RdbProg.rc_ix (s_lib k)).
  Proof.
    intros R A. destruct (sreach_inv R) as (R1 & R2 & W).
    destruct (@C28_rdb_apart_partial H enc dec E h (s_lib k) R1) as (s' & (lc & X) & F).
    - rewrite R2. intros c t o c' t' o' I I' N.
      apply in_flat_map in I as (x & Hx & I). apply in_flat_map in I' as (y & Hy & I').
      destruct x as [|d rq f d' t1 o1| |]; cbn [lib_event] in I; try (now destruct I); destruct I as [I|[]]; inversion I; subst.
      destruct y as [|d2 rq2 f2 d2' t2 o2| |]; cbn [lib_event] in I'; try (now destruct I'); destruct I' as [I'|[]]; inversion I'; subst.
      destruct (call_ok W _ _ _ _ _ _ Hx) as [B1 O1]. pose proof (before_in B1) as [J1 _].
      destruct (call_ok W _ _ _ _ _ _ Hy) as [B2 O2]. pose proof (before_in B2) as [J2 _].
      assert (d <> d2) as Nd. { intros ->. destruct (call_same W _ _ _ _ _ _ _ _ _ _ _ Hx Hy) as (_ & _ & Ec & _). exact (N Ec). }
      destruct (A _ _ _ _ _ _ _ _ J1 J2 Nd O1 O2) as [(r & rq' & f' & B)|[(r & rq' & f' & B)|Ap]].
      + pose proof (before_in B) as [_ B3]. destruct (req_same W B3 J2) as [-> ->].
        destruct (nested W _ _ _ _ _ _ _ _ Hx Hy B) as (r0 & B4). left. eauto.
      + pose proof (before_in B) as [_ B3]. destruct (req_same W B3 J1) as [-> ->].
        destruct (nested W _ _ _ _ _ _ _ _ Hy Hx B) as (r0 & B4). right. left. eauto.
      + auto.
    - exists s'. split; [|exact F]. rewrite R2 in X. exact (clients_explained W X e0).
  Qed.

  (** No condition on what overlaps, if every request makes a call with at most
      one access to the database (or no call). *)
  Theorem C49_rocksdb_single_access_partial (e0 : renv) s k : sreach s k ->
    (forall c rq f o, In (JReq c rq f) (s_log k) -> call_of f rq = Some o -> light o = true) ->
    exists s', linearizable one_by_one s (seen (s_log k)) s' /\
      ((forall t, RdbProg.rc_threads (s_lib k) t = RdbProg.RIdle) -> r_db s' = RdbProg.rc_db (s_lib k) /\ r_indexed s' = RdbProg.rc_ix (s_lib k)).
  Proof.
    intros R A. destruct (sreach_inv R) as (R1 & R2 & W).
    destruct (@C28_rdb_single_access_partial H enc dec E s (s_lib k) R1) as (s' & (lc & X) & F).
    - rewrite R2. intros c t o I. apply in_flat_map in I as (x & Hx & I).
      destruct x as [|d rq f d' t1 o1| |]; cbn [lib_event] in I; try (now destruct I); destruct I as [I|[]]; inversion I; subst.
      destruct (call_ok W _ _ _ _ _ _ Hx) as [B1 O1]. pose proof (before_in B1) as [J1 _]. eauto.
    - exists s'. split; [|exact F]. rewrite R2 in X. exact (clients_explained W X e0).
  Qed.

  (** With no condition at all: in every state, an edge is stored in both
      directions or in neither. *)
  Theorem C49_rocksdb_mirror k a t b : sreach rdb_empty k ->
    mem (edge_key H (Edge a t b)) (d_edges (RdbProg.rc_db (s_lib k))) = mem (edge_key H (Edge b t a)) (d_reversed (RdbProg.rc_db (s_lib k))).
  Proof. intros R. destruct (sreach_inv R) as (R1 & _). exact (@C21_rdb_concurrent H enc dec E (s_lib k) a t b R1). Qed.

  (** A request that makes no library call (a ping, a plugin that does not exist,
      a message that does not convert) gets the response it gets from an idle
      server in any state, whatever other requests do meanwhile. *)
  Theorem C49_rocksdb_no_call s k c rq f r : sreach s k -> In (JReq c rq f) (s_log k) -> call_of f rq = None -> In (JResp c r) (s_log k) ->
    forall s1 e, one_by_one s1 (e, f, rq) = (r, s1).
  Proof.
    intros R A N B s1 e. destruct (sreach_inv R) as (_ & _ & W).
    destruct (resp_ok W _ _ B) as [(rq2 & f2 & c2 & t2 & o2 & r0 & P1 & P2 & ->)|(rq2 & f2 & P1 & P2 & ->)].
    - apply before_in in P1 as [P1 _]. destruct (call_ok W _ _ _ _ _ _ P1) as [B1 O1]. apply before_in in B1 as [B1 _].
      destruct (req_same W A B1) as [-> ->]. congruence.
    - apply before_in in P1 as [P1 _]. destruct (req_same W A P1) as [-> ->]. now apply srv_refuse.
  Qed.

  (** A request is answered at most once, and only if it was made. *)
  Theorem C49_rocksdb_once s k c r : sreach s k -> In (JResp c r) (s_log k) ->
    (exists rq f, before (s_log k) (JReq c rq f) (JResp c r)) /\
    forall i j r1 r2, nth_error (s_log k) i = Some (JResp c r1) -> nth_error (s_log k) j = Some (JResp c r2) -> i = j.
  Proof.
    intros R B. destruct (sreach_inv R) as (_ & _ & W). split; [|intros i j r1 r2; apply (resp_once W)].
    destruct (resp_ok W _ _ B) as [(rq2 & f2 & c2 & t2 & o2 & r0 & P1 & P2 & ->)|(rq2 & f2 & P1 & _)]; [|eauto].
    pose proof (before_in P1) as [P1' _]. destruct (call_ok W _ _ _ _ _ _ P1') as [B1 O1]. exists rq2, f2.
    eapply before_trans; [|exact B1|exact P1]. intros i j. apply (call_once W).
  Qed.

  (** From every state, without any new request, every request made so far can be
      answered: no deadlock. *)
  Theorem C49_rocksdb_progress (e0 : renv) s k : sreach s k -> exists k', working H alnum enc dec k k' /\
    forall c rq f, In (JReq c rq f) (s_log k') -> exists r, In (JResp c r) (s_log k').
  Proof. intros R. exact (answer_all e0 (sreach_any R)). Qed.

  (** Every concurrent execution of the library is one of a server. *)
  Lemma hosted rq fr s k : RdbProg.rreach H enc dec E s k ->
    (forall c t o, In (Inv c t o) (RdbProg.rc_hist k) -> call_of (fr c) (rq c) = Some o) ->
    let l := flat_map (emb alnum enc dec rq fr) (RdbProg.rc_hist k) in
    sreach s (SConf k l) /\ seen l = map (shown alnum enc dec rq fr) (RdbProg.rc_hist k) /\
    (apart_when_concurrent (RdbProg.rc_hist k) -> requests_apart l).
  Proof.
    intros R A l. conj; [now apply embed|apply shown_emb|].
    intros Ap c rq1 f1 o c' rq2 f2 o' B B' N O O'.
    assert (forall c rq1 f1 o, In (JReq c rq1 f1) l -> call_of f1 rq1 = Some o -> rq1 = rq c /\ f1 = fr c /\ exists t, In (Inv c t o) (RdbProg.rc_hist k)) as Q.
    { clear - A. intros c rq1 f1 o B O. apply in_flat_map in B as ([c1 t1 o1|c1 r1] & Hx & [B|[B|[]]]); inversion B; subst.
      conj; auto. exists t1. rewrite (A _ _ _ Hx) in O. now inversion O; subst. }
    destruct (Q _ _ _ _ B O) as (-> & -> & t & J). destruct (Q _ _ _ _ B' O') as (-> & -> & t' & J').
    destruct (Ap _ _ _ _ _ _ J J' N) as [(r & Bf)|[(r & Bf)|X]].
    - left. eexists _, _, _. eapply before_flat_map; [exact Bf|right; now left|now left].
    - right. left. eexists _, _, _. eapply before_flat_map; [exact Bf|right; now left|now left].
    - auto.
  Qed.
End Server.

(** ** Concrete executions *)

(** With requests that interfere, the claim is false: two clients create the same
    vertex at the same time and both are told that they did. *)
Theorem C49_rocksdb_refuted : exists k,
  sreach hash0 alnum0 enc0 dec0 succeeds rdb_empty k /\ (forall t, RdbProg.rc_threads (s_lib k) t = RdbProg.RIdle) /\
  (let ask := RqCreateVertex (to_vertex v1) in
   seen (s_log k) = [Inv 0 0 ask; Inv 1 1 ask; Ret 0 (SOk (RsCreated true)); Ret 1 (SOk (RsCreated true))]) /\
  forall s', ~ linearizable (srv_step hash0 alnum0 enc0 dec0) rdb_empty (seen (s_log k)) s'.
Proof.
  set (ask := RqCreateVertex (to_vertex v1)).
  set (l := [Begin 0 ok_env (OCreateVertex v1); Begin 1 ok_env (OCreateVertex v1); Go 0 1; Go 1 1; Go 0 2; Go 1 2]).
  destruct (@ran_reach rdb_empty l) as [R Q]; [vm_compute; reflexivity|reflexivity|].
  assert (RdbProg.rc_hist (ran rdb_empty l) = [Inv 0 0 (OCreateVertex v1); Inv 1 1 (OCreateVertex v1); Ret 0 (Ok (RBoolean true)); Ret 1 (Ok (RBoolean true))]) as Hh by (vm_compute; reflexivity).
  destruct (@hosted hash0 alnum0 enc0 dec0 succeeds (fun _ => ask) (fun _ => u1) _ _ R) as (R' & Es & _).
  { rewrite Hh. intros c t o Hx. repeat (destruct Hx as [Hx|Hx]; [inversion Hx; subst; vm_compute; reflexivity|]). destruct Hx. }
  set (log := flat_map _ _) in *. exists (SConf (ran rdb_empty l) log). cbn [s_lib s_log].
  assert (seen log = [Inv 0 0 ask; Inv 1 1 ask; Ret 0 (SOk (RsCreated true)); Ret 1 (SOk (RsCreated true))]) as Hs.
  { rewrite Es, Hh. reflexivity. }
  conj; auto. intros s' [x X]. rewrite Hs in X.
  destruct (ex_complete X 0 0 ask (SOk (RsCreated true))) as (ea & La); [now left|do 2 right; now left|].
  destruct (ex_complete X 1 1 ask (SOk (RsCreated true))) as (eb & Lb); [right; now left|do 3 right; now left|].
  assert (forall c, In c x -> c_id c = 0 \/ c_id c = 1) as Ids.
  { intros c Hc. destruct (ex_sound X c Hc) as [(t & I) _]. repeat (destruct I as [I|I]; [inversion I; auto|]). destruct I. }
  assert (length x <= 2) as Ll.
  { rewrite <- (map_length (@c_id _ _ _)). change 2 with (length [0; 1]). apply NoDup_incl_length; [exact (ex_once X)|].
    intros c Hc. apply in_map_iff in Hc as (y & <- & Hy). destruct (Ids _ Hy) as [-> | ->]; cbn; auto. }
  assert (exists e1 e2 f1 f2 i j, x = [Call i (e1, f1) ask (SOk (RsCreated true)); Call j (e2, f2) ask (SOk (RsCreated true))]) as (e1 & e2 & f1 & f2 & i & j & ->).
  { destruct ea as [ea fa], eb as [eb fb]. destruct x as [|a [|b [|]]]; cbn in Ll; try lia; [destruct La|..].
    - exfalso. destruct La as [La|[]], Lb as [F|[]]. congruence.
    - destruct La as [La|[La|[]]], Lb as [F|[F|[]]]; try congruence; subst; eauto 10. }
  destruct (ex_legal X) as (s1 & X1 & s2 & X2 & _). cbn [c_env c_op c_res] in X1, X2. clear X La Lb Ids Ll.
  destruct e1 as [w1 i1 p1], e2 as [w2 i2 p2]. destruct w1, w2; try (apply (f_equal fst) in X1; vm_compute in X1; discriminate X1);
  apply (f_equal snd) in X1; cbn [snd] in X1; subst s1; apply (f_equal fst) in X2; vm_compute in X2; discriminate X2.
Qed.

(** Requests that overlap and do not interfere: a client creates an edge while
    another sets a property of one of its ends; then a client deletes the other
    end while another reads the property. *)
Example C49_rocksdb_case : exists h k,
  sreach hash0 alnum0 enc0 dec0 succeeds (run0 h) k /\ (forall t, RdbProg.rc_threads (s_lib k) t = RdbProg.RIdle) /\
  requests_apart alnum0 dec0 (s_log k) /\
  seen (s_log k) = [Inv 0 0 (RqCreateEdge (to_edge e12)); Inv 1 1 (RqSetProperties (to_set_req enc0 (q_vertex u1, n_name, j_bob)));
     Ret 1 (SOk RsEmpty); Ret 0 (SOk (RsCreated true));
     Inv 2 2 (RqDelete (to_query enc0 (q_vertex u2))); Inv 3 3 (RqGet (to_query enc0 (q_vprop u1 n_name)));
     Ret 2 (SOk RsEmpty); Ret 3 (SOk (RsStream [SOk (to_out enc0 (VertexProperties [VProps v1 [NProp n_name j_bob]]))]))].
Proof.
  destruct C28_apart_example as (h & k & R & Q & A & Hh).
  set (rq := fun c : nat => match c with 0 => RqCreateEdge (to_edge e12) | 1 => RqSetProperties (to_set_req enc0 (q_vertex u1, n_name, j_bob))
                            | 2 => RqDelete (to_query enc0 (q_vertex u2)) | _ => RqGet (to_query enc0 (q_vprop u1 n_name)) end).
  destruct (@hosted hash0 alnum0 enc0 dec0 succeeds rq (fun _ => u1) _ _ R) as (R' & Es & Ap).
  { rewrite Hh. intros c t o Hx. repeat (destruct Hx as [Hx|Hx]; [inversion Hx; subst; vm_compute; reflexivity|]). destruct Hx. }
  set (log := flat_map _ _) in *. exists h, (SConf k log). cbn [s_lib s_log]. conj; auto.
  rewrite Es, Hh. cbn [map shown].
  repeat (match goal with |- ?x :: ?l = ?y :: ?m => apply (f_equal2 cons) end); [..|reflexivity]; try reflexivity; apply f_equal; vm_compute; reflexivity.
Qed.

(** Single accesses: clients insert in bulk while others read everything. *)
Example C49_single_access_case : exists k,
  sreach hash0 alnum0 enc0 dec0 succeeds rdb_empty k /\
  (forall c rq f o, In (JReq c rq f) (s_log k) -> request_op alnum0 dec0 f rq = Some o -> light o = true) /\
  exists v, In (Inv 1 1 (RqGet (to_query enc0 QAllVertex))) (seen (s_log k)) /\ In (Ret 1 (SOk (RsStream [SOk (to_out enc0 (Vertices [v]))]))) (seen (s_log k)).
Proof.
  destruct C28_single_access_example as (k & R & L & Hh).
  set (rq := fun c : nat => match c with 0 => RqBulkInsert [SOk (to_bulk enc0 (BVertex v1))] | 1 => RqGet (to_query enc0 QAllVertex)
                            | _ => RqBulkInsert [SOk (to_bulk enc0 (BVertex v2))] end).
  assert (forall c t o, In (Inv c t o) (RdbProg.rc_hist k) -> request_op alnum0 dec0 u1 (rq c) = Some o) as Ops.
  { rewrite Hh. intros c t o Hx. repeat (destruct Hx as [Hx|Hx]; [inversion Hx; subst; vm_compute; reflexivity|]). destruct Hx. }
  destruct (@hosted hash0 alnum0 enc0 dec0 succeeds rq (fun _ => u1) _ _ R Ops) as (R' & Es & _).
  set (log := flat_map _ _) in *. exists (SConf k log). cbn [s_lib s_log]. conj; auto.
  - intros c rq1 f1 o B O. apply in_flat_map in B as ([c1 t1 o1|c1 r1] & Hx & [B|[B|[]]]); inversion B; subst.
    apply (L c t1). rewrite (Ops _ _ _ Hx) in O. now inversion O; subst.
  - exists v1. rewrite Es, Hh. cbn [map shown]. split; [right; now left|]. do 5 right. left. apply f_equal. vm_compute. reflexivity.
Qed.
