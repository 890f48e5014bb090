(** * Deployed servers whose plugins call [sync] themselves.

    Deploy.v with plugin code that may call every method of the transaction it
    is given, [sync] included (proto/src/server.rs 299-306; memory/datastore.rs
    291-303), and with the process killed at any moment of handling any request:
    between two calls a plugin makes, or in the middle of a [sync]. *)
From Verif Require Import Base OMap Json Types Util Db Spec Mem MemFacts MemHist MsgPack Image MemSame Persist Proto Server PluginProg PropsServer Deploy.

Set Implicit Arguments.
Local Open Scope list_scope.
Local Notation bytes := (list byte).

(** What a call depends on besides the database and the disk: the hash order,
    and what the file system does if the call is a [sync]. *)
Notation penv := (order * fenv)%type.
Notation pdb := (memory * disk)%type.

(** memory/datastore.rs 120-433 with a path: [sync] (291-303) writes the file,
    no other method looks at the disk. *)
Definition on_disk {A} (k : disk) (x : outcome A * memory) : outcome A * pdb := (fst x, (snd x, k)).
Definition path_ops (dbg : bool) (e : penv) : txn_ops pdb :=
  let o := mem_ops dbg (fst e) in
  {| t_vertex_count := fun s => t_vertex_count o (fst s);
     t_all_vertices := fun s => t_all_vertices o (fst s);
     t_range_vertices := fun s => t_range_vertices o (fst s);
     t_specific_vertices := fun s => t_specific_vertices o (fst s);
     t_vertex_ids_with_property := fun s => t_vertex_ids_with_property o (fst s);
     t_vertex_ids_with_property_value := fun s => t_vertex_ids_with_property_value o (fst s);
     t_edge_count := fun s => t_edge_count o (fst s);
     t_all_edges := fun s => t_all_edges o (fst s);
     t_range_edges := fun s => t_range_edges o (fst s);
     t_range_reversed_edges := fun s => t_range_reversed_edges o (fst s);
     t_specific_edges := fun s => t_specific_edges o (fst s);
     t_edges_with_property := fun s => t_edges_with_property o (fst s);
     t_edges_with_property_value := fun s => t_edges_with_property_value o (fst s);
     t_vertex_property := fun s => t_vertex_property o (fst s);
     t_all_vertex_properties := fun s => t_all_vertex_properties o (fst s);
     t_edge_property := fun s => t_edge_property o (fst s);
     t_all_edge_properties := fun s => t_all_edge_properties o (fst s);
     t_delete_vertices := fun s x => on_disk (snd s) (t_delete_vertices o (fst s) x);
     t_delete_edges := fun s x => on_disk (snd s) (t_delete_edges o (fst s) x);
     t_delete_vertex_properties := fun s x => on_disk (snd s) (t_delete_vertex_properties o (fst s) x);
     t_delete_edge_properties := fun s x => on_disk (snd s) (t_delete_edge_properties o (fst s) x);
     t_sync := fun s => (fst (sync_disks (snd e) (fst s) (snd s)), (fst s, sync_end (snd e) (fst s) (snd s)));
     t_create_vertex := fun s x => on_disk (snd s) (t_create_vertex o (fst s) x);
     t_create_edge := fun s x => on_disk (snd s) (t_create_edge o (fst s) x);
     t_bulk_insert := fun s x => on_disk (snd s) (t_bulk_insert o (fst s) x);
     t_index_property := fun s x => on_disk (snd s) (t_index_property o (fst s) x);
     t_set_vertex_properties := fun s a b c => on_disk (snd s) (t_set_vertex_properties o (fst s) a b c);
     t_set_edge_properties := fun s a b c => on_disk (snd s) (t_set_edge_properties o (fst s) a b c) |}.

Section DeployPlugins.
  Variable alnum : N -> bool.
  Variable enc : json -> bytes.
  Variable dec : bytes -> option json.
  Variable codes : list (bytes * code).
  Variable dbg : bool.

  (** proto/src/server.rs 299-306: plugin code on the transaction of a database
      with a path; a panic poisons the mutex, what was written to disk stays. *)
  Definition sync_plugin (envs : nat -> penv) (c : code) : plugin (mem_db * disk) :=
    fun s arg =>
      match fst s with
      | None => (Panic, s)
      | Some m =>
        match run_prog (path_ops dbg) envs 0 (c arg) (m, snd s) with
        | (Panic, (_, k)) => (Panic, (None, k))
        | (r, (m', k)) => (r, (Some m', k))
        end
      end.
  Definition sync_step (s : mem_db * disk) (x : penv * op) : outcome res * (mem_db * disk) :=
    path_step dbg (snd (fst x)) s (fst (fst x), snd x).
  Definition qhandle : mem_db * disk -> asked penv -> srv response * (mem_db * disk) :=
    handle alnum enc dec sync_step sync_plugin codes.

  (** ** The calls that change something, as they are made *)

  (** The writing calls of plugin code, with what each depends on and the state
      it finds. *)
  Notation made := (penv * op * pdb)%type.
  Fixpoint trail {A} (envs : nat -> penv) (i : nat) (p : prog A) (s : pdb) : list made :=
    match p with
    | Done _ => []
    | Read c k =>
      match read_call (path_ops dbg (envs i)) s c with
      | Ok b => trail envs (S i) (k (ROk b)) s
      | Err e => trail envs (S i) (k (RErr e)) s
      | Panic => []
      end
    | Write c k => (envs i, op_of c, s) ::
      match write_call (path_ops dbg (envs i)) s c with
      | (Ok b, s') => trail envs (S i) (k (ROk b)) s'
      | (Err e, s') => trail envs (S i) (k (RErr e)) s'
      | (Panic, _) => []
      end
    end.
  Fixpoint find_code (n : bytes) (l : list (bytes * code)) : option code :=
    match l with
    | [] => None
    | (m, c) :: r => if list_eq_dec Byte.byte_eq_dec n m then Some c else find_code n r
    end.
  (** The calls made for a request: none when the mutex is poisoned. *)
  Definition calls_made (st : mem_db) (k : disk) (a : asked penv) : list made :=
    match st with
    | None => []
    | Some m =>
      match a_req a with
      | RqExecutePlugin name arg =>
        match (match arg with Some a => of_json dec a | None => COk jnull end) with
        | CErr _ => []
        | COk v => match find_code name codes with
                   | None => []
                   | Some c => trail (a_envs a) 0 (c v) (m, k)
                   end
        end
      | rq => match request_op alnum dec (a_fresh a) rq with
              | Some o => [(a_env a, o, (m, k))]
              | None => []
              end
      end
    end.

  (** ** The life of a server *)
  Inductive qevent :=
  | QAsk (a : asked penv)                    (* a request *)
  | QRestart                                  (* the process stops (or is killed) and is started again *)
  | QKilled (a : asked penv) (j k : nat).     (* killed while handling [a], when it had made [j] of its calls; if the
                                                 next one is a [sync], in the middle of that, at its [k]th state of the
                                                 disk; then started again *)

  Definition killed_disk (st : mem_db) (d : disk) (a : asked penv) (j k : nat) : disk :=
    match nth_error (calls_made st d a) j with
    | Some (e, OSync, (m, d')) => nth k (snd (sync_disks (snd e) m d')) (sync_end (snd e) m d')
    | Some (_, _, (_, d')) => d'
    | None => snd (snd (qhandle (st, d) a))
    end.
  Definition q_step (lim : nat) (s : pstate) (e : qevent) : option (srv response) * pstate :=
    match e with
    | QAsk a =>
      match p_up s with
      | None => (None, s)
      | Some st => let (r, s') := qhandle (st, p_disk s) a in (Some r, PState (Some (fst s')) (snd s'))
      end
    | QRestart => (None, PState (p_open lim (p_disk s)) (p_disk s))
    | QKilled a j k =>
      match p_up s with
      | None => (None, PState (p_open lim (p_disk s)) (p_disk s))
      | Some st => let d := killed_disk st (p_disk s) a j k in (None, PState (p_open lim d) d)
      end
    end.
  Fixpoint q_trace (lim : nat) (s : pstate) (evs : list qevent) : list (option (srv response)) * pstate :=
    match evs with
    | [] => ([], s)
    | e :: evs' => let (r, s') := q_step lim s e in
                   let (rs, s'') := q_trace lim s' evs' in (r :: rs, s'')
    end.

  (** The same as calls of the library (Persist.v). *)
  Definition pcall (x : made) : pevent := PCall (fst (fst (fst x))) (snd (fst x)) (snd (fst (fst x))).
  Definition library1 (s : pstate) (e : qevent) : list pevent :=
    match e with
    | QAsk a => match p_up s with None => [] | Some st => map pcall (calls_made st (p_disk s) a) end
    | QRestart => [PRestart]
    | QKilled a j k =>
      match p_up s with
      | None => [PRestart]
      | Some st =>
        let cs := calls_made st (p_disk s) a in
        map pcall (firstn j cs) ++
        [match nth_error cs j with Some (e, OSync, _) => PCrash (snd e) k | _ => PRestart end]
      end
    end.
  Fixpoint library (lim : nat) (s : pstate) (evs : list qevent) : list pevent :=
    match evs with
    | [] => []
    | e :: evs' => library1 s e ++ library lim (snd (q_step lim s e)) evs'
    end.

  (** ** One call *)

  Lemma p_trace_app lim evs1 evs2 : forall s,
    p_trace lim dbg s (evs1 ++ evs2) = let (rs1, s1) := p_trace lim dbg s evs1 in let (rs2, s2) := p_trace lim dbg s1 evs2 in (rs1 ++ rs2, s2).
  Proof.
    induction evs1 as [|e evs1 IH]; intros s; cbn [app p_trace]; [destruct (p_trace lim dbg s evs2); reflexivity|].
    destruct (p_step lim dbg s e) as [r s1]. rewrite IH. destruct (p_trace lim dbg s1 evs1) as [rs1 s2]. destruct (p_trace lim dbg s2 evs2) as [rs2 s3]. reflexivity.
  Qed.
  Lemma p_trace_app_snd lim evs1 evs2 s : snd (p_trace lim dbg s (evs1 ++ evs2)) = snd (p_trace lim dbg (snd (p_trace lim dbg s evs1)) evs2).
  Proof. rewrite p_trace_app. destruct (p_trace lim dbg s evs1) as [a b]. cbn [snd]. destruct (p_trace lim dbg b evs2). reflexivity. Qed.
  Lemma p_trace_cons_snd lim e evs s : snd (p_trace lim dbg s (e :: evs)) = snd (p_trace lim dbg (snd (p_step lim dbg s e)) evs).
  Proof. cbn [p_trace]. destruct (p_step lim dbg s e) as [r s1]. cbn [snd]. destruct (p_trace lim dbg s1 evs). reflexivity. Qed.

  Lemma path_write {B} (e : penv) (c : wcall B) m k :
    (op_of c = OSync /\ snd (write_call (path_ops dbg e) (m, k) c) = (m, sync_end (snd e) m k)) \/
    (op_of c <> OSync /\ fst (write_call (path_ops dbg e) (m, k) c) = fst (write_call (mem_ops dbg (fst e)) m c) /\
       snd (write_call (path_ops dbg e) (m, k) c) = (snd (write_call (mem_ops dbg (fst e)) m c), k)).
  Proof. destruct c; try (right; conj; [discriminate|reflexivity|reflexivity]). left. conj; reflexivity. Qed.

  (** A call as a library call: the same result for disk and, if it returns, memory. *)
  Lemma made_step lim {B} (e : penv) (c : wcall B) m k r m' k' :
    write_call (path_ops dbg e) (m, k) c = (r, (m', k')) ->
    exists st, snd (p_step lim dbg (PState (Some (Some m)) k) (pcall (e, op_of c, (m, k)))) = PState (Some st) k' /\
      (r <> Panic -> st = Some m').
  Proof.
    intros E. unfold pcall. cbn [fst snd]. destruct (path_write e c m k) as [(O & X)|(O & X & Y)].
    - rewrite O. cbn [p_step p_up p_disk snd]. rewrite E in X. cbn [snd] in X. inversion X; subst. eauto.
    - rewrite E in X, Y. cbn [fst snd] in X, Y.
      assert (snd (p_step lim dbg (PState (Some (Some m)) k) (PCall (fst e) (op_of c) (snd e))) = PState (Some (snd (mem_step dbg (Some m) (fst e, op_of c)))) k) as ->.
      { cbn [p_step p_up p_disk]. destruct (mem_step dbg (Some m) (fst e, op_of c)) eqn:Q. destruct (op_of c); try reflexivity. now elim O. }
      inversion Y; subst. eexists. split; [reflexivity|]. intros N.
      destruct (write_exec (mem_ops dbg (fst e)) m c) as [W1 W2]. unfold mem_step. cbn [fst snd].
      destruct (exec (mem_ops dbg (fst e)) m (op_of c)) as [r1 m1]. cbn [fst snd] in W1, W2. subst m1.
      destruct r1; try reflexivity. elim N. apply W2. reflexivity.
  Qed.

  Lemma trail_trace lim envs {A} (p : prog A) : forall i m k r m' k',
    run_prog (path_ops dbg) envs i p (m, k) = (r, (m', k')) ->
    exists st, snd (p_trace lim dbg (PState (Some (Some m)) k) (map pcall (trail envs i p (m, k)))) = PState (Some st) k' /\
      (r <> Panic -> st = Some m').
  Proof.
    induction p as [r0|B c g IH|B c g IH]; intros i m k r m' k' E; cbn [run_prog trail] in *.
    - inversion E; subst. cbn. eauto.
    - destruct (read_call (path_ops dbg (envs i)) (m, k) c); [eapply IH; eauto|eapply IH; eauto|]. inversion E; subst. cbn. exists (Some m'). split; reflexivity.
    - cbn [map]. rewrite p_trace_cons_snd.
      destruct (write_call (path_ops dbg (envs i)) (m, k) c) as [r1 [m1 k1]] eqn:W.
      destruct (made_step lim (envs i) c m k W) as (st & -> & N).
      destruct r1 as [b|er|].
      + rewrite N by discriminate. eapply IH; eauto.
      + rewrite N by discriminate. eapply IH; eauto.
      + inversion E; subst. cbn. exists st. split; [reflexivity|]. congruence.
  Qed.
  (** What each call finds. *)
  Lemma trail_before lim envs {A} (p : prog A) : forall i m k j e o m1 k1,
    nth_error (trail envs i p (m, k)) j = Some (e, o, (m1, k1)) ->
    snd (p_trace lim dbg (PState (Some (Some m)) k) (map pcall (firstn j (trail envs i p (m, k))))) = PState (Some (Some m1)) k1.
  Proof.
    induction p as [r0|B c g IH|B c g IH]; intros i m k j e o m1 k1 E; cbn [trail] in *.
    - destruct j; discriminate.
    - destruct (read_call (path_ops dbg (envs i)) (m, k) c); [eapply IH; eauto|eapply IH; eauto|]. destruct j; discriminate.
    - destruct j as [|j]; cbn [nth_error] in E; [inversion E; subst; reflexivity|]. cbn [firstn map]. rewrite p_trace_cons_snd.
      destruct (write_call (path_ops dbg (envs i)) (m, k) c) as [r1 [m2 k2]] eqn:W.
      destruct (made_step lim (envs i) c m k W) as (st & -> & N).
      destruct r1 as [b|er|].
      + rewrite N by discriminate. eapply IH; eauto.
      + rewrite N by discriminate. eapply IH; eauto.
      + destruct j; discriminate.
  Qed.
  Lemma trail_may envs {A} (p : prog A) : forall i s x, In x (trail envs i p s) -> may_write p (snd (fst x)).
  Proof.
    induction p as [r0|B c g IH|B c g IH]; intros i s x Hx; cbn [trail may_write] in *; [destruct Hx|..].
    - destruct (read_call (path_ops dbg (envs i)) s c); [eauto|eauto|destruct Hx].
    - destruct Hx as [<-|Hx]; [now left|]. right. destruct (write_call (path_ops dbg (envs i)) s c) as [[b|er|] s']; [eauto|eauto|destruct Hx].
  Qed.

  (** ** One request *)
  Lemma find_sync envs name :
    find_plugin name (hosted sync_plugin codes envs) = option_map (sync_plugin envs) (find_code name codes).
  Proof.
    unfold hosted. induction codes as [|[n c] r IH]; cbn [map find_plugin find_code fst snd]; [reflexivity|].
    destruct (list_eq_dec Byte.byte_eq_dec name n); [reflexivity|exact IH].
  Qed.
  Lemma find_code_In name c : find_code name codes = Some c -> In (name, c) codes.
  Proof.
    induction codes as [|[n c'] r IH]; cbn [find_code]; [discriminate|]. destruct (list_eq_dec Byte.byte_eq_dec name n) as [->|N].
    - intros E. inversion E. now left.
    - right. auto.
  Qed.
  Lemma poisoned_handle k a : snd (qhandle (None, k) a) = (None, k).
  Proof.
    unfold qhandle. destruct (@handle_cases alnum enc dec codes _ _ sync_step sync_plugin (None, k) a) as [X|[(o & R & X)|(name & arg & v & c & Rq & Hc & X)]]; rewrite X; try reflexivity.
    unfold sync_step, path_step. cbn [fst snd]. destruct o; reflexivity.
  Qed.
  Lemma one_call st k e o : snd (sync_step (Some st, k) (e, o)) =
    let s := snd (p_step 0 dbg (PState (Some (Some st)) k) (PCall (fst e) o (snd e))) in
    (match p_up s with Some x => x | None => None end, p_disk s).
  Proof.
    unfold sync_step, path_step. cbn [fst snd p_step p_up p_disk]. destruct (mem_step dbg (Some st) (fst e, o)) eqn:Q. destruct o; reflexivity.
  Qed.

  Lemma request_trace lim st k a : exists st',
    snd (p_trace lim dbg (PState (Some st) k) (map pcall (calls_made st k a))) = PState (Some st') (snd (snd (qhandle (st, k) a))) /\
    (fst (snd (qhandle (st, k) a)) = st' \/ fst (snd (qhandle (st, k) a)) = None).
  Proof.
    destruct st as [m|]; [|rewrite poisoned_handle; cbn; eauto].
    destruct a as [env fresh envs rq]. unfold qhandle, handle, calls_made. cbn [a_env a_fresh a_envs a_req].
    assert (forall o g, exists st', snd (p_trace lim dbg (PState (Some (Some m)) k) (map pcall [(env, o, (m, k))])) = PState (Some st') (snd (snd (blocking sync_step (Some m, k) env o g))) /\
      (fst (snd (blocking sync_step (Some m, k) env o g)) = st' \/ fst (snd (blocking sync_step (Some m, k) env o g)) = None)) as B.
    { intros o g. assert (snd (blocking sync_step (Some m, k) env o g) = snd (sync_step (Some m, k) (env, o))) as ->.
      { unfold blocking. destruct (sync_step (Some m, k) (env, o)) as [[]]; reflexivity. }
      cbn [map]. rewrite p_trace_cons_snd. unfold pcall. cbn [fst snd p_trace p_step p_up p_disk].
      unfold sync_step, path_step. cbn [fst snd]. destruct (mem_step dbg (Some m) (fst env, o)) as [r1 st1].
      destruct o; cbn [fst snd]; eauto. }
    assert (exists st', snd (p_trace lim dbg (PState (Some (Some m)) k) (map pcall [])) = PState (Some st') k /\ (Some m = st' \/ Some m = None)) as Z.
    { cbn. eauto. }
    destruct rq; cbn [serve request_op]; try exact Z; try apply B.
    - destruct (of_vertex alnum v); cbn [converted]; [apply B|exact Z].
    - destruct (of_ident alnum t); cbn [converted]; [apply B|exact Z].
    - destruct (of_edge alnum e); cbn [converted]; [apply B|exact Z].
    - destruct (of_query alnum dec q) as [q'|]; cbn [converted]; [|exact Z].
      destruct (B (OGet q') (fun _ => RsEmpty)) as (st' & X & Y). exists st'. unfold blocking in X, Y.
      destruct (sync_step (Some m, k) (env, OGet q')) as [r1 s1] eqn:Es. cbn [fst snd].
      match goal with |- context [let (r, _) := ?x in _] => replace x with (r1, s1) by (symmetry; exact Es) end. destruct r1; exact (conj X Y).
    - destruct (of_query alnum dec q); cbn [converted]; [apply B|exact Z].
    - destruct (of_set_req alnum dec r) as [[[q n] v]|]; cbn [converted]; [apply B|exact Z].
    - destruct (read_stream alnum dec items); [apply B|exact Z].
    - destruct (of_index_req alnum r); cbn [converted]; [apply B|exact Z].
    - destruct (match arg with Some a => of_json dec a | None => COk jnull end) as [v|]; cbn [converted]; [|exact Z].
      rewrite find_sync. destruct (find_code name codes) as [c|]; cbn [option_map]; [|exact Z].
      unfold sync_plugin. cbn [fst snd]. destruct (run_prog (path_ops dbg) envs 0 (c v) (m, k)) as [r [m' k']] eqn:E.
      destruct (trail_trace lim envs (c v) 0 m k E) as (st' & X & Y). exists st'.
      destruct r; cbn [fst snd]; (split; [exact X|]); [left; symmetry; apply Y; discriminate|left; symmetry; apply Y; discriminate|now right].
  Qed.

  Lemma made_before lim st k a j e o m1 k1 : nth_error (calls_made st k a) j = Some (e, o, (m1, k1)) ->
    snd (p_trace lim dbg (PState (Some st) k) (map pcall (firstn j (calls_made st k a)))) = PState (Some (Some m1)) k1.
  Proof.
    destruct st as [m|]; [|destruct j; discriminate]. unfold calls_made.
    assert (forall (x : option op), nth_error (match x with Some o => [(a_env a, o, (m, k))] | None => [] end) j = Some (e, o, (m1, k1)) ->
       snd (p_trace lim dbg (PState (Some (Some m)) k) (map pcall (firstn j match x with Some o => [(a_env a, o, (m, k))] | None => [] end))) = PState (Some (Some m1)) k1) as B.
    { intros [x|]; destruct j as [|[|j]]; cbn [nth_error]; try discriminate. intros E. inversion E; subst. reflexivity. }
    destruct (a_req a); try match goal with |- context [request_op ?x ?y ?z ?w] => exact (B (request_op x y z w)) end.
    destruct (match arg with Some a => of_json dec a | None => COk jnull end) as [v|]; [|destruct j; discriminate].
    destruct (find_code name codes) as [c|]; [|destruct j; discriminate]. apply trail_before.
  Qed.
  Lemma made_issues st k a x : In x (calls_made st k a) -> issues alnum dec codes a (snd (fst x)).
  Proof.
    destruct st as [m|]; [|intros []]. unfold calls_made.
    assert (In x (match request_op alnum dec (a_fresh a) (a_req a) with Some o => [(a_env a, o, (m, k))] | None => [] end) -> issues alnum dec codes a (snd (fst x))) as B.
    { destruct (request_op alnum dec (a_fresh a) (a_req a)) eqn:R; [|intros []]. intros [<-|[]]. now left. }
    destruct (a_req a) eqn:Rq; try exact B.
    destruct (match arg with Some a => of_json dec a | None => COk jnull end) as [v|]; [|intros []].
    destruct (find_code name codes) as [c|] eqn:F; [|intros []]. intros Hx. right. exists name, arg, v, c. conj; auto; [now apply find_code_In|].
    now apply trail_may in Hx.
  Qed.

  (** ** The simulation *)

  (** The library's database, or the server's mutex is poisoned. *)
  Definition mirrors (s t : pstate) : Prop := p_disk s = p_disk t /\ (p_up s = p_up t \/ p_up s = Some None /\ p_up t <> None).
  Lemma step_mirrors lim s t e : mirrors s t ->
    mirrors (snd (q_step lim s e)) (snd (p_trace lim dbg t (library1 s e))).
  Proof.
    intros [D U]. destruct s as [su sd], t as [tu td]. cbn [p_disk p_up] in *. subst td.
    destruct e as [a| |a j k]; cbn [q_step library1 p_up p_disk].
    - destruct su as [st|].
      + destruct (request_trace lim st sd a) as (st' & X & Y).
        destruct (qhandle (st, sd) a) as [r [st1 k1]] eqn:Q. cbn [fst snd] in *.
        destruct U as [U|[U N]].
        * rewrite <- U, X. split; [reflexivity|]. cbn [p_up]. destruct Y as [-> | ->]; [now left|]. right. split; [reflexivity|discriminate].
        * inversion U; subst. pose proof (eq_trans (eq_sym (f_equal snd Q)) (poisoned_handle sd a)) as P. cbn [snd] in P. inversion P; subst. cbn. split; [reflexivity|].
          right. auto.
      + destruct U as [<-|[U _]]; [|discriminate]. cbn. split; [reflexivity|now left].
    - cbn. split; [reflexivity|now left].
    - destruct su as [st|].
      2:{ cbn. split; [reflexivity|now left]. }
      unfold killed_disk. cbn [snd]. rewrite p_trace_app_snd.
      destruct st as [m|].
      + destruct U as [U|[U _]]; [|discriminate]. subst tu.
        destruct (nth_error (calls_made (Some m) sd a) j) as [[[e o] [m1 k1]]|] eqn:E.
        * rewrite (made_before lim _ _ _ _ E). destruct o; cbn; (split; [reflexivity|now left]).
        * assert (firstn j (calls_made (Some m) sd a) = calls_made (Some m) sd a) as -> by (apply firstn_all2; now apply nth_error_None).
          destruct (request_trace lim (Some m) sd a) as (st' & X & Y). rewrite X. cbn. split; [reflexivity|now left].
      + assert (calls_made None sd a = []) as -> by reflexivity. rewrite firstn_nil. assert (nth_error (@nil made) j = None) as -> by (destruct j; reflexivity).
        rewrite poisoned_handle. cbn. split; [reflexivity|now left].
  Qed.
  Lemma trace_mirrors lim evs : forall s t, mirrors s t ->
    mirrors (snd (q_trace lim s evs)) (snd (p_trace lim dbg t (library lim s evs))).
  Proof.
    induction evs as [|e evs IH]; intros s t M; [exact M|]. cbn [q_trace library]. rewrite p_trace_app_snd.
    pose proof (step_mirrors lim e M) as M'. destruct (q_step lim s e) as [r s']. cbn [snd] in *. specialize (IH _ _ M').
    destruct (q_trace lim s' evs). exact IH.
  Qed.

  (** ** Responses *)
  Fixpoint qresponses (s : mem_db * disk) (l : list (asked penv)) : list (srv response) :=
    match l with [] => [] | a :: l => let (r, s') := qhandle s a in r :: qresponses s' l end.

  Definition ptwins {A} (x y : outcome A * pdb) : Prop := fst x = fst y /\ twin (fst (snd x)) (fst (snd y)).
  Lemma sync_result_same f a b k k' : fst (sync_disks f a k) = fst (sync_disks f b k').
  Proof. unfold sync_disks. destruct (fe_temp f); [destruct (fe_wrote f); [destruct (fe_rename f)|]|]; reflexivity. Qed.
  Lemma path_read e a b k k' {B} (c : rcall B) : twin a b -> read_call (path_ops dbg e) (a, k) c = read_call (path_ops dbg e) (b, k') c.
  Proof. intros T. pose proof (read_twins dbg (fst e) c T) as R. destruct c; exact R. Qed.
  Lemma path_write_twins e a b k k' {B} (c : wcall B) : twin a b -> ptwins (write_call (path_ops dbg e) (a, k) c) (write_call (path_ops dbg e) (b, k') c).
  Proof.
    intros T. pose proof (write_twins dbg (fst e) c T) as R. destruct c; try exact R.
    split; [apply sync_result_same|exact T].
  Qed.
  Lemma path_run_twins envs {A} (p : prog A) : forall i a b k k', twin a b ->
    ptwins (run_prog (path_ops dbg) envs i p (a, k)) (run_prog (path_ops dbg) envs i p (b, k')).
  Proof.
    induction p as [r|B c g IH|B c g IH]; intros i a b k k' T; cbn [run_prog]; [split; auto|..].
    - rewrite (path_read (envs i) k k' c T). destruct (read_call (path_ops dbg (envs i)) (b, k') c); auto. split; auto.
    - destruct (path_write_twins (envs i) k k' c T) as [E T'].
      destruct (write_call (path_ops dbg (envs i)) (a, k) c) as [r [a' k1]], (write_call (path_ops dbg (envs i)) (b, k') c) as [r' [b' k1']].
      cbn [fst snd] in E, T'. subst r'. destruct r; auto. split; auto.
  Qed.
  Lemma sync_plugin_twins envs c a b k k' arg : twin_db a b ->
    fst (sync_plugin envs c (a, k) arg) = fst (sync_plugin envs c (b, k') arg) /\
    twin_db (fst (snd (sync_plugin envs c (a, k) arg))) (fst (snd (sync_plugin envs c (b, k') arg))).
  Proof.
    destruct a as [a|], b as [b|]; cbn [twin_db]; intros T; try contradiction; [|split; reflexivity]. unfold sync_plugin. cbn [fst snd].
    destruct (path_run_twins envs (c arg) 0 k k' T) as [E T'].
    destruct (run_prog (path_ops dbg) envs 0 (c arg) (a, k)) as [r [a' k1]], (run_prog (path_ops dbg) envs 0 (c arg) (b, k')) as [r' [b' k1']].
    cbn [fst snd] in *. subst r'. destruct r; cbn; auto.
  Qed.
  Lemma sync_step_twins a b k k' x : twin_db a b ->
    fst (sync_step (a, k) x) = fst (sync_step (b, k') x) /\ twin_db (fst (snd (sync_step (a, k) x))) (fst (snd (sync_step (b, k') x))).
  Proof.
    intros T. destruct x as [e o]. unfold sync_step, path_step. cbn [fst snd].
    destruct (step_twins dbg a b (fst e, o) T) as [E T'].
    destruct (mem_step dbg a (fst e, o)) as [r a'], (mem_step dbg b (fst e, o)) as [r' b']. cbn [fst snd] in *. subst r'.
    destruct o; cbn [fst snd]; auto. destruct a as [a|], b as [b|]; cbn [twin_db] in T; try contradiction; cbn [fst snd].
    - split; [|exact T]. now rewrite (sync_result_same (snd e) a b k k').
    - auto.
  Qed.
  Lemma qhandle_twins a b k k' rq : twin_db a b ->
    fst (qhandle (a, k) rq) = fst (qhandle (b, k') rq) /\ twin_db (fst (snd (qhandle (a, k) rq))) (fst (snd (qhandle (b, k') rq))).
  Proof.
    intros T. unfold qhandle, handle. destruct rq as [env fresh envs rq]. cbn [a_env a_fresh a_envs a_req].
    assert (forall o g, fst (blocking sync_step (a, k) env o g) = fst (blocking sync_step (b, k') env o g) /\
                        twin_db (fst (snd (blocking sync_step (a, k) env o g))) (fst (snd (blocking sync_step (b, k') env o g)))) as B.
    { intros o g. unfold blocking. destruct (sync_step_twins a b k k' (env, o) T) as [E T'].
      destruct (sync_step (a, k) (env, o)) as [r a'], (sync_step (b, k') (env, o)) as [r' b']. cbn [fst snd] in *. subst r'. destruct r; auto. }
    destruct rq; cbn [serve]; auto.
    - destruct (of_vertex alnum v); cbn [converted]; auto.
    - destruct (of_ident alnum t); cbn [converted]; auto.
    - destruct (of_edge alnum e); cbn [converted]; auto.
    - destruct (of_query alnum dec q) as [q'|]; cbn [converted]; auto. destruct (sync_step_twins a b k k' (env, OGet q') T) as [E T'].
      destruct (sync_step (a, k) (env, OGet q')) as [r a'], (sync_step (b, k') (env, OGet q')) as [r' b']. cbn [fst snd] in *. subst r'. auto.
    - destruct (of_query alnum dec q); cbn [converted]; auto.
    - destruct (of_set_req alnum dec r) as [[[q n] v]|]; cbn [converted]; auto.
    - destruct (read_stream alnum dec items); auto.
    - destruct (of_index_req alnum r); cbn [converted]; auto.
    - destruct (match arg with Some a => of_json dec a | None => COk jnull end) as [v|]; cbn [converted]; auto.
      rewrite find_sync. destruct (find_code name codes) as [c|]; cbn [option_map]; auto.
      destruct (sync_plugin_twins envs c a b k k' v T) as [E T'].
      destruct (sync_plugin envs c (a, k) v) as [x a'], (sync_plugin envs c (b, k') v) as [x' b']. cbn [fst snd] in *. subst x'. destruct x; auto.
  Qed.
  Lemma qresponses_twins l : forall a b k k', twin_db a b -> qresponses (a, k) l = qresponses (b, k') l.
  Proof.
    induction l as [|x l IH]; intros a b k k' T; cbn [qresponses]; [reflexivity|]. destruct (qhandle_twins a b k k' x T) as [E T'].
    destruct (qhandle (a, k) x) as [r [a' k1]], (qhandle (b, k') x) as [r' [b' k1']]. cbn [fst snd] in *. subst r'. f_equal. auto.
  Qed.
End DeployPlugins.
