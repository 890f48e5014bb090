(** * C49: concurrent clients of a server. *)
From Verif Require Import Base OMap Json Types Util Db Mem Rdb Spec QueryFacts MemFacts MemHist Claims PropsMem Examples
  KeyFacts MsgPack RdbGraph RdbRep RdbPut RdbRefine RdbHist PropsRdb PropsRdbIndex Proto ProtoFacts Server PropsProto Conc PropsConc PluginProg PropsServer.

Set Implicit Arguments.
Local Open Scope list_scope.
Local Notation bytes := (list byte).

Lemma sequential_split {Op Res St Env} (step : St -> Env * Op -> Res * St) l1 x l2 : forall s s', sequential step s (l1 ++ x :: l2) s' ->
  exists s1 s2, sequential step s l1 s1 /\ step s1 (c_env x, c_op x) = (c_res x, s2).
Proof.
  induction l1 as [|y l1 IH]; intros s s'; cbn [app sequential].
  - intros (s1 & E & _). exists s, s1. auto.
  - intros (s1 & E & Q). destruct (IH _ _ Q) as (s2 & s3 & Q2 & E2). exists s2, s3. split; [exists s1; auto|assumption].
Qed.
Lemma sequential_in {Op Res St Env} (step : St -> Env * Op -> Res * St) l s s' : sequential step s l s' ->
  forall x, In x l -> exists s1 s2, step s1 (c_env x, c_op x) = (c_res x, s2).
Proof.
  intros Q x Hx. apply in_split in Hx as (l1 & l2 & ->). apply sequential_split in Q as (s1 & s2 & _ & E). eauto.
Qed.

(** ** An in-memory database behind a server

    server.rs: the handlers of concurrent requests run on a thread pool; each
    makes at most one call of the database (or of one plugin), and each such call
    holds the datastore's mutex from beginning to end; requests that make no call
    do not wait for it ([StPass] of Conc.v).  Conversions before and after the
    call depend on the request and the result only. *)
Section Memory.
  Variable alnum : N -> bool.
  Variable enc : json -> bytes.
  Variable dec : bytes -> option json.
  Variable codes : list (bytes * code).
  Variable dbg : bool.

  (** What a request's handling depends on: see [asked]. *)
  Definition choices : Type := order * uuid * (nat -> order).
  Definition req_step (st : mem_db) (x : choices * request) : srv response * mem_db :=
    let '(ord, fresh, envs, rq) := x in
    handle alnum enc dec (mem_step dbg) (mem_plugin dbg) codes st (Asked ord fresh envs rq).
  Definition served := reach req_step (Some mem_empty).
  Definition as_asked (c : gcall request (srv response) choices) : asked order :=
    let '(ord, fresh, envs) := c_env c in Asked ord fresh envs (c_op c).
  Lemma session_of l : forall s s', sequential req_step s l s' ->
    session alnum enc dec (mem_step dbg) (mem_plugin dbg) codes s (map as_asked l) = s'.
  Proof.
    intros s s' Q. apply sequential_run in Q. rewrite <- Q. clear. unfold session. revert s.
    induction l as [|x l IH]; intros s; [reflexivity|]. cbn [map fold_left]. rewrite IH.
    destruct x as [c [[ord fresh] envs] o r]. reflexivity.
  Qed.

  (** Whatever the interleaving, the requests can be put in an order that
      explains all responses and agrees with real time. *)
  Theorem C49_memory_linearizable k : served k -> linearizable req_step (Some mem_empty) (hist k) (shared k).
  Proof. apply locked_linearizable. Qed.

  (** At every moment, the database is one that the requests made so far, handled
      one after the other, lead to; hence one that library calls lead to. *)
  Theorem C49_memory_state k : served k -> exists l,
    session alnum enc dec (mem_step dbg) (mem_plugin dbg) codes (Some mem_empty) l = shared k /\
    forall a, In a l -> exists c t, In (Inv c t (a_req a)) (hist k).
  Proof.
    intros R. destruct (C49_memory_linearizable R) as [l X].
    exists (map as_asked l). split; [apply session_of, (ex_legal X)|].
    intros a Ha. apply in_map_iff in Ha as (x & <- & Hx). destruct (ex_sound X x Hx) as [(t & Ht) _].
      destruct x as [c [[ord fresh] envs] o r]. cbn in *. eauto.
  Qed.
  Theorem C49_memory_no_dangling k m e : served k -> shared k = Some m -> is_edge (gof m) e ->
    (exists t, get (eout e) (gv (gof m)) = Some t) /\ (exists t, get (ein e) (gv (gof m)) = Some t).
  Proof.
    intros R E He. destruct (C49_memory_state R) as (l & Hl & _). rewrite E in Hl.
    destruct (@C48_memory_history alnum enc dec codes dbg l m Hl) as (h & Hh & _).
    destruct (run_weak dbg h Hh) as (_ & _ & EP & _). destruct (EP e He) as [E1 E2]. now rewrite !mem_get in *.
  Qed.

  (** No deadlock: while requests are being handled, one of them can go on. *)
  Theorem C49_memory_progress k t : served k -> threads k t <> Idle ->
    exists t' k', threads k t' <> Idle /\ threads k' t' <> threads k t' /\ cstep req_step k k' /\ next k' = next k.
  Proof. apply locked_progress. exact (id_order, u1, fun _ => id_order). Qed.

  (** A request whose answer does not depend on the database gets that answer
      whatever other clients do: [ping], and requests that are refused. *)
  Theorem C49_memory_independent k c t rq r x : served k -> In (Inv c t rq) (hist k) -> In (Ret c r) (hist k) ->
    (forall st y, fst (req_step st (y, rq)) = x) -> r = x.
  Proof.
    intros R I E P. destruct (C49_memory_linearizable R) as [l X]. destruct (ex_complete X _ _ _ _ I E) as (e & He).
    pose proof (ex_legal X) as Q. eapply sequential_in in Q as (s & s1 & Q); [|exact He]. cbn [c_env c_op c_res] in Q. rewrite <- (P s e), Q. reflexivity.
  Qed.
  Theorem C49_memory_ping k c t r : served k -> In (Inv c t RqPing) (hist k) -> In (Ret c r) (hist k) -> r = SOk RsEmpty.
  Proof. intros R I E. eapply C49_memory_independent; eauto. intros st [[ord fresh] envs]. reflexivity. Qed.

  (** A plugin's call is atomic: what it returns is what its code computes from
      one state of the database, with nobody else's changes in between. *)
  Theorem C49_memory_plugin_atomic k c t name arg r : served k -> In (Inv c t (RqExecutePlugin name arg)) (hist k) -> In (Ret c r) (hist k) ->
    exists st ch, r = fst (req_step st (ch, RqExecutePlugin name arg)) /\
      exists l, session alnum enc dec (mem_step dbg) (mem_plugin dbg) codes (Some mem_empty) l = st /\
        forall a, In a l -> exists c t, In (Inv c t (a_req a)) (hist k).
  Proof.
    intros R I E. destruct (C49_memory_linearizable R) as [l X]. destruct (ex_complete X _ _ _ _ I E) as (e & He).
    apply in_split in He as (l1 & l2 & ->).
    pose proof (ex_legal X) as Q. apply sequential_split in Q as (s & s1 & Q1 & Q2). exists s, e. cbn [c_env c_op c_res] in Q2. rewrite Q2.
    split; [reflexivity|]. eexists. split; [apply session_of; exact Q1|].
    intros a Ha. apply in_map_iff in Ha as (x & <- & Hx).
    destruct (ex_sound X x) as [(t' & Ht) _]; [apply in_or_app; now left|].
    destruct x as [c' [[ord fresh] envs] o r']. cbn in *. eauto.
  Qed.
End Memory.

(** ** RocksDB: a plugin is not atomic

    rdb/datastore.rs 459-: a transaction holds no lock, so other requests' calls
    happen between the method calls of a plugin.  [run_among others]: before the
    [i]th method call of the plugin, others' calls [others i] happen. *)
Section Among.
  Variables St Env : Type.
  Variable ops : Env -> txn_ops St.
  Definition meanwhile (l : list (Env * op)) (s : St) : St := fold_left (fun s x => snd (exec (ops (fst x)) s (snd x))) l s.
  Fixpoint run_among {A} (others : nat -> list (Env * op)) (envs : nat -> Env) (i : nat) (p : prog A) (s : St) : outcome A * St :=
    match p with
    | Done r => (r, s)
    | Read c k =>
      let s := meanwhile (others i) s in
      match read_call (ops (envs i)) s c with
      | Ok b => run_among others envs (S i) (k (ROk b)) s
      | Err e => run_among others envs (S i) (k (RErr e)) s
      | Panic => (Panic, s)
      end
    | Write c k =>
      let s := meanwhile (others i) s in
      match write_call (ops (envs i)) s c with
      | (Ok b, s') => run_among others envs (S i) (k (ROk b)) s'
      | (Err e, s') => run_among others envs (S i) (k (RErr e)) s'
      | (Panic, s') => (Panic, s')
      end
    end.
  (** With nobody else around it is [run_prog]. *)
  Theorem C49_alone {A} envs (p : prog A) : forall i s, run_among (fun _ => []) envs i p s = run_prog ops envs i p s.
  Proof.
    induction p as [r|B c k IH|B c k IH]; intros i s; cbn [run_among run_prog meanwhile fold_left]; [reflexivity|..].
    - destruct (read_call (ops (envs i)) s c); auto.
    - destruct (write_call (ops (envs i)) s c) as [[] s1]; auto.
  Qed.
End Among.

(** A plugin that counts the vertices twice and says whether the counts agree. *)
Definition recount : prog bool :=
  Read RVertexCount (fun a => Read RVertexCount (fun b =>
    match a, b with
    | ROk a, ROk b => Done (Ok (N.eqb a b))
    | RErr e, _ | _, RErr e => Done (Err e)
    end)).
(** Run alone, on any state, it never says [false]; among other requests it does. *)
Theorem C49_rocksdb_plugin_refuted :
  (forall H enc dec envs s, fst (run_prog (rdb_ops H enc dec) envs 0 recount s) <> Ok false) /\
  (forall dbg envs m, fst (run_prog (mem_ops dbg) envs 0 recount m) <> Ok false) /\
  (exists others envs, fst (run_among (rdb_ops hash0 enc0 dec0) others envs 0 recount rdb_empty) = Ok false).
Proof.
  conj.
  - intros H enc dec envs s. unfold recount. cbn [run_prog read_call]. change (t_vertex_count (rdb_ops H enc dec (envs 0)) s) with (t_vertex_count (rdb_ops H enc dec (envs 1)) s).
    destruct (t_vertex_count (rdb_ops H enc dec (envs 1)) s) eqn:E; rewrite ?E; cbn; [|discriminate..].
    now rewrite N.eqb_refl.
  - intros dbg envs m. unfold recount. cbn. now rewrite N.eqb_refl.
  - exists (fun i => match i with 1 => [(ok_env, OCreateVertex v1)] | _ => [] end), (fun _ => ok_env). vm_compute. reflexivity.
Qed.

(** ** A concrete history

    Two clients create the same vertex at the same time; the one that asked
    first is told that it exists already. *)
Definition ask_v1 : request := RqCreateVertex (to_vertex v1).
Example C49_case : exists k, served alnum0 enc0 dec0 link_codes true k /\
  hist k = [Inv 0 0 ask_v1; Inv 1 1 ask_v1; Ret 0 (SOk (RsCreated false)); Ret 1 (SOk (RsCreated true))].
Proof.
  set (st := req_step alnum0 enc0 dec0 link_codes true). set (e := (id_order, u1, fun _ : nat => id_order) : choices).
  destruct (overtaken st (Some mem_empty) e ask_v1) as (k & R & E). exists k. split; [exact R|]. rewrite E.
  assert (fst (st (Some mem_empty) (e, ask_v1)) = SOk (RsCreated true)) as -> by (vm_compute; reflexivity).
  assert (fst (st (snd (st (Some mem_empty) (e, ask_v1))) (e, ask_v1)) = SOk (RsCreated false)) as -> by (vm_compute; reflexivity).
  reflexivity.
Qed.
