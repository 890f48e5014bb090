(** * C48: a server with plugins keeps the database's guarantees. *)
From Verif Require Import Base OMap Json Types Util Db Mem Rdb Spec QueryFacts MemFacts MemHist Claims PropsMem Examples
  KeyFacts MsgPack RdbGraph RdbRep RdbPut RdbRefine RdbHist PropsRdb PropsRdbIndex Proto ProtoFacts Server PropsProto JsonText TextUtf8 PluginProg.

Set Implicit Arguments.
Local Open Scope list_scope.
Local Notation bytes := (list byte).

(** ** A plugin call is a sequence of calls *)

Lemma write_exec {S B} (ops : txn_ops S) s (c : wcall B) :
  snd (exec ops s (op_of c)) = snd (write_call ops s c) /\
  (fst (exec ops s (op_of c)) = Panic <-> fst (write_call ops s c) = Panic).
Proof.
  destruct c; cbn [op_of exec write_call]; unfold resw; cbn [fst snd];
    (split; [reflexivity|]); match goal with |- context [omapo _ ?x] => destruct x; cbn; split; congruence end.
Qed.

(** Calls that return, one after the other. *)
Inductive calls {S Env} (ops : Env -> txn_ops S) : S -> list (Env * op) -> S -> Prop :=
| calls_nil s : calls ops s [] s
| calls_cons s x l s' : fst (exec (ops (fst x)) s (snd x)) <> Panic ->
    calls ops (snd (exec (ops (fst x)) s (snd x))) l s' -> calls ops s (x :: l) s'.

Lemma run_prog_calls {S Env A} (ops : Env -> txn_ops S) envs (p : prog A) : forall i s r s',
  run_prog ops envs i p s = (r, s') ->
  exists l, s' = fold_left (fun s x => snd (exec (ops (fst x)) s (snd x))) l s /\
    (r <> Panic -> calls ops s l s') /\ (forall x, In x l -> may_write p (snd x)).
Proof.
  induction p as [r0|B c k IH|B c k IH]; intros i s r s' E; cbn [run_prog] in E.
  - inversion E; subst. exists []. conj; [reflexivity|constructor|intros x []].
  - destruct (read_call (ops (envs i)) s c) as [b|e|] eqn:R.
    + destruct (IH _ _ _ _ _ E) as (l & E1 & C & W). exists l. conj; auto. intros x Hx. cbn. eauto.
    + destruct (IH _ _ _ _ _ E) as (l & E1 & C & W). exists l. conj; auto. intros x Hx. cbn. eauto.
    + inversion E; subst. exists []. conj; [reflexivity|congruence|intros x []].
  - destruct (write_exec (ops (envs i)) s c) as [W1 W2].
    destruct (write_call (ops (envs i)) s c) as [[b|e|] s1] eqn:R; cbn [fst snd] in W1, W2.
    + destruct (IH _ _ _ _ _ E) as (l & E1 & C & W). exists ((envs i, op_of c) :: l). conj.
      * cbn [fold_left fst snd]. now rewrite W1.
      * intros N. constructor; cbn [fst snd]; [intros P; apply W2 in P; discriminate|]. rewrite W1. auto.
      * intros x [<-|Hx]; cbn; eauto.
    + destruct (IH _ _ _ _ _ E) as (l & E1 & C & W). exists ((envs i, op_of c) :: l). conj.
      * cbn [fold_left fst snd]. now rewrite W1.
      * intros N. constructor; cbn [fst snd]; [intros P; apply W2 in P; discriminate|]. rewrite W1. auto.
      * intros x [<-|Hx]; cbn; eauto.
    + inversion E; subst. exists [(envs i, op_of c)]. conj.
      * reflexivity.
      * congruence.
      * intros x [<-|[]]. cbn. auto.
Qed.

Lemma mem_calls dbg m l m' : calls (mem_ops dbg) m l m' -> fold_left (fun st x => snd (mem_step dbg st x)) l (Some m) = Some m'.
Proof.
  induction 1 as [m|m x l m' N C IH]; [reflexivity|]. cbn [fold_left]. rewrite <- IH. f_equal. unfold mem_step.
  destruct (exec (mem_ops dbg (fst x)) m (snd x)) as [[]]; cbn in *; congruence.
Qed.

(** ** Handling one request *)
Section Handle.
  Variable alnum : N -> bool.
  Variable enc : json -> bytes.
  Variable dec : bytes -> option json.
  Variable codes : list (bytes * code).

  Lemma find_hosted {St Env} (host : (nat -> Env) -> code -> plugin St) envs name p :
    find_plugin name (hosted host codes envs) = Some p -> exists c, In (name, c) codes /\ p = host envs c.
  Proof.
    unfold hosted. induction codes as [|[n c] r IH]; cbn [map find_plugin fst snd]; [discriminate|].
    destruct (list_eq_dec Byte.byte_eq_dec name n) as [->|N].
    - intros E. inversion E. exists c. split; [now left|reflexivity].
    - intros E. destruct (IH E) as (c' & H & ->). exists c'. split; [now right|reflexivity].
  Qed.

  (** Either the request made one call, or it ran a plugin, or nothing happened. *)
  Lemma handle_cases {St Env} (step : St -> Env * op -> outcome res * St) host st a :
    snd (handle alnum enc dec step host codes st a) = st \/
    (exists o, request_op alnum dec (a_fresh a) (a_req a) = Some o /\
       snd (handle alnum enc dec step host codes st a) = snd (step st (a_env a, o))) \/
    (exists name arg v c, a_req a = RqExecutePlugin name arg /\ In (name, c) codes /\
       snd (handle alnum enc dec step host codes st a) = snd (host (a_envs a) c st v)).
  Proof.
    unfold handle. destruct a as [env fresh envs rq]. cbn [a_env a_fresh a_envs a_req].
    assert (forall o k, snd (blocking step st env o k) = snd (step st (env, o))) as B.
    { intros o k. unfold blocking. destruct (step st (env, o)) as [[]]; reflexivity. }
    destruct rq; cbn [serve request_op]; try (now left).
    - right; left. eexists. split; [reflexivity|]. apply B.
    - destruct (of_vertex alnum v); cbn [converted]; [|now left]. right; left. eexists. split; [reflexivity|]. apply B.
    - destruct (of_ident alnum t); cbn [converted]; [|now left]. right; left. eexists. split; [reflexivity|]. apply B.
    - destruct (of_edge alnum e); cbn [converted]; [|now left]. right; left. eexists. split; [reflexivity|]. apply B.
    - destruct (of_query alnum dec q) as [q'|]; cbn [converted]; [|now left]. right; left. eexists. split; [reflexivity|].
      destruct (step st (env, OGet q')). reflexivity.
    - destruct (of_query alnum dec q); cbn [converted]; [|now left]. right; left. eexists. split; [reflexivity|]. apply B.
    - destruct (of_set_req alnum dec r) as [[[q n] v]|]; cbn [converted]; [|now left]. right; left. eexists. split; [reflexivity|]. apply B.
    - destruct (read_stream alnum dec items); [|now left]. right; left. eexists. split; [reflexivity|]. apply B.
    - destruct (of_index_req alnum r); cbn [converted]; [|now left]. right; left. eexists. split; [reflexivity|]. apply B.
    - destruct (match arg with Some a => of_json dec a | None => COk jnull end) as [v|] eqn:V; cbn [converted]; [|now left].
      destruct (find_plugin name (hosted host codes envs)) as [p|] eqn:F; [|now left].
      right; right. destruct (find_hosted _ _ _ F) as (c & Hc & ->). exists name, arg, v, c. split; [reflexivity|]. split; [assumption|].
      destruct (host envs c st v) as [[]]; reflexivity.
  Qed.

  (** Every state a server over an in-memory database reaches, whatever the
      requests and whatever the plugins, is reached by calls of the library. *)
  Notation mem_session dbg := (session alnum enc dec (mem_step dbg) (mem_plugin dbg) codes (Some mem_empty)).
  Theorem C48_memory_history dbg l m : mem_session dbg l = Some m ->
    exists h, mem_run dbg h = Some m /\ forall x, In x h -> exists a, In a l /\ issues alnum dec codes a (snd x).
  Proof.
    revert m. induction l as [|a l IH] using rev_ind; intros m.
    - cbn. intros E. exists []. split; [exact E|intros x []].
    - unfold session. rewrite fold_left_app. cbn [fold_left]. fold (session alnum enc dec (mem_step dbg) (mem_plugin dbg) codes (Some mem_empty) l).
      set (st := mem_session dbg l) in *. intros E.
      destruct (@handle_cases _ _ (mem_step dbg) (mem_plugin dbg) st a) as [X|[(o & R & X)|(name & arg & v & c & Rq & Hc & X)]]; rewrite X in E.
      + destruct (IH m E) as (h & Hr & Hi). exists h. split; [assumption|]. intros x Hx. destruct (Hi x Hx) as (b & Hb & I). exists b. split; [apply in_or_app; now left|assumption].
      + destruct st as [m0|] eqn:Es; [|cbn in E; discriminate]. destruct (IH m0 eq_refl) as (h & Hr & Hi).
        exists (h ++ [(a_env a, o)]). split; [rewrite mem_run_snoc, Hr; exact E|].
        intros x Hx. apply in_app_or in Hx as [Hx|[<-|[]]].
        * destruct (Hi x Hx) as (b & Hb & I). exists b. split; [apply in_or_app; now left|assumption].
        * exists a. split; [apply in_or_app; right; now left|]. now left.
      + destruct st as [m0|] eqn:Es; [|cbn in E; discriminate]. destruct (IH m0 eq_refl) as (h & Hr & Hi).
        unfold mem_plugin in E. destruct (run_prog (mem_ops dbg) (a_envs a) 0 (c v) m0) as [r m1] eqn:P.
        destruct (run_prog_calls _ _ _ _ _ P) as (os & _ & C & W).
        assert (r <> Panic /\ m1 = m) as [N ->] by (destruct r; cbn in E; inversion E; split; congruence).
        exists (h ++ os). split.
        * unfold mem_run. rewrite fold_left_app. fold (mem_run dbg h). rewrite Hr. apply mem_calls. auto.
        * intros x Hx. apply in_app_or in Hx as [Hx|Hx].
          { destruct (Hi x Hx) as (b & Hb & I). exists b. split; [apply in_or_app; now left|assumption]. }
          exists a. split; [apply in_or_app; right; now left|]. right. exists name, arg, v, c. auto.
  Qed.

  (** The same for RocksDB. *)
  Variable H : bytes -> N.
  Notation rdb_session := (session alnum enc dec (rdb_step H enc dec) (rdb_plugin H enc dec) codes rdb_empty).
  Theorem C48_rocksdb_history l : exists h, rdb_session l = rdb_run H enc dec h /\
    forall x, In x h -> exists a, In a l /\ issues alnum dec codes a (snd x).
  Proof.
    induction l as [|a l (h & Hr & Hi)] using rev_ind.
    - exists []. split; [reflexivity|intros x []].
    - assert (forall x, In x h -> exists b, In b (l ++ [a]) /\ issues alnum dec codes b (snd x)) as Hi'.
      { intros x Hx. destruct (Hi x Hx) as (b & Hb & I). exists b. split; [apply in_or_app; now left|assumption]. }
      unfold session. rewrite fold_left_app. cbn [fold_left].
      fold (session alnum enc dec (rdb_step H enc dec) (rdb_plugin H enc dec) codes rdb_empty l). rewrite Hr.
      destruct (@handle_cases _ _ (rdb_step H enc dec) (rdb_plugin H enc dec) (rdb_run H enc dec h) a) as [X|[(o & R & X)|(name & arg & v & c & Rq & Hc & X)]]; rewrite X.
      + exists h. auto.
      + exists (h ++ [(a_env a, o)]). split; [now rewrite rdb_run_snoc|].
        intros x Hx. apply in_app_or in Hx as [Hx|[<-|[]]]; [auto|]. exists a. split; [apply in_or_app; right; now left|]. now left.
      + unfold rdb_plugin. destruct (run_prog (rdb_ops H enc dec) (a_envs a) 0 (c v) (rdb_run H enc dec h)) as [r s1] eqn:P.
        destruct (run_prog_calls _ _ _ _ _ P) as (os & E & C & W). exists (h ++ os). split.
        * cbn [snd]. rewrite E. unfold rdb_run at 2. rewrite fold_left_app. reflexivity.
        * intros x Hx. apply in_app_or in Hx as [Hx|Hx]; [auto|].
          exists a. split; [apply in_or_app; right; now left|]. right. exists name, arg, v, c. auto.
  Qed.
End Handle.

(** ** Guarantees *)
Section Guarantees.
  Variable alnum : N -> bool.
  Variable enc : json -> bytes.
  Variable dec : bytes -> option json.
  Variable codes : list (bytes * code).
  Notation mem_session dbg := (session alnum enc dec (mem_step dbg) (mem_plugin dbg) codes (Some mem_empty)).
  Notation rdb_session H := (session alnum enc dec (rdb_step H enc dec) (rdb_plugin H enc dec) codes rdb_empty).

  (** Memory: no query returns a dangling edge, whatever plugins did. *)
  Theorem C48_memory_no_dangling dbg l m ord q outs v e :
    mem_session dbg l = Some m -> (forall n, QueryTrust.leaf q <> QEdgeWithPropertyPresence n) ->
    db_get (mem_ops dbg ord) m q = Ok outs -> In v outs -> In e (edges_in v) ->
    is_edge (gof m) e /\ (exists t, get (eout e) (gv (gof m)) = Some t) /\ (exists t, get (ein e) (gv (gof m)) = Some t).
  Proof.
    intros Hs NL E Hv He. destruct (@C48_memory_history alnum enc dec codes dbg l m Hs) as (h & Hr & _). eapply C01_mem_no_dangling; eauto.
  Qed.

  (** RocksDB, when what is read from JSON text survives being written again, and
      the values plugins write do too. *)
  Hypothesis reread : forall t v, dec t = Some v -> dec (enc v) = Some v.
  Definition good_codes : Prop := forall name c v o, In (name, c) codes -> may_write (c v) o -> good_op enc dec o.

  Lemma of_json_good j v : of_json dec j = COk v -> lossless enc dec v.
  Proof. unfold of_json. destruct (dec (pj_value j)) as [x|] eqn:E; intros X; inversion X; subst. exact (reread E). Qed.
  Lemma of_bulk_good it x : of_bulk alnum dec it = COk x -> good_item enc dec x.
  Proof.
    destruct it as [|v|e|i n v|e n v]; cbn [of_bulk]; [discriminate|..].
    - destruct (of_vertex alnum v); cbn [cbind]; intros X; inversion X; exact I.
    - destruct (of_edge alnum e); cbn [cbind]; intros X; inversion X; exact I.
    - destruct (required _ i) as [i'|]; cbn [cbind]; [|discriminate]. destruct (of_uuid i'); cbn [cbind]; [|discriminate].
      destruct (required _ n) as [n'|]; cbn [cbind]; [|discriminate]. destruct (of_ident alnum n'); cbn [cbind]; [|discriminate].
      destruct (required _ v) as [v'|]; cbn [cbind]; [|discriminate]. destruct (of_json dec v') as [w|] eqn:J; cbn [cbind]; [|discriminate].
      intros X; inversion X. cbn. eapply of_json_good; eauto.
    - destruct (required _ e) as [e'|]; cbn [cbind]; [|discriminate]. destruct (of_edge alnum e'); cbn [cbind]; [|discriminate].
      destruct (required _ n) as [n'|]; cbn [cbind]; [|discriminate]. destruct (of_ident alnum n'); cbn [cbind]; [|discriminate].
      destruct (required _ v) as [v'|]; cbn [cbind]; [|discriminate]. destruct (of_json dec v') as [w|] eqn:J; cbn [cbind]; [|discriminate].
      intros X; inversion X. cbn. eapply of_json_good; eauto.
  Qed.
  Lemma request_good fresh rq o : request_op alnum dec fresh rq = Some o -> good_op enc dec o.
  Proof.
    destruct rq; cbn [request_op]; try discriminate.
    - intros X; inversion X; exact I.
    - destruct (of_vertex alnum v); intros X; inversion X; exact I.
    - destruct (of_ident alnum t); intros X; inversion X; exact I.
    - destruct (of_edge alnum e); intros X; inversion X; exact I.
    - destruct (of_query alnum dec q); intros X; inversion X; exact I.
    - destruct (of_query alnum dec q); intros X; inversion X; exact I.
    - unfold of_set_req. destruct (required _ (psr_q r)) as [q|]; cbn [cbind]; [|discriminate].
      destruct (of_query alnum dec q); cbn [cbind]; [|discriminate].
      destruct (required _ (psr_name r)) as [n|]; cbn [cbind]; [|discriminate]. destruct (of_ident alnum n); cbn [cbind]; [|discriminate].
      destruct (required _ (psr_value r)) as [v|]; cbn [cbind]; [|discriminate]. destruct (of_json dec v) as [w|] eqn:J; cbn [cbind]; [|discriminate].
      intros X; inversion X. cbn. eapply of_json_good; eauto.
    - destruct (read_stream alnum dec items) as [l|] eqn:R; [|discriminate]. intros X; inversion X. cbn. clear - reread R. revert l R.
      induction items as [|[it|s] items IH]; cbn [read_stream]; intros l; [intros X; inversion X; constructor| |discriminate].
      destruct (of_bulk alnum dec it) as [x|] eqn:B; [|discriminate]. destruct (read_stream alnum dec items) as [l'|]; [|discriminate].
      intros X; inversion X. constructor; [eapply of_bulk_good; eauto|auto].
    - destruct (of_index_req alnum r); intros X; inversion X; exact I.
  Qed.

  Variable H : bytes -> N.
  Lemma rdb_good_history l : good_codes -> exists h, rdb_session H l = rdb_run H enc dec h /\ good_history enc dec h /\
    forall x, In x h -> exists a, In a l /\ issues alnum dec codes a (snd x).
  Proof.
    intros G. destruct (C48_rocksdb_history alnum enc dec codes H l) as (h & Hr & Hi). exists h. conj; auto.
    apply Forall_forall. intros x Hx. destruct (Hi x Hx) as (a & _ & [R|(name & arg & v & p & _ & Hp & W)]).
    - eapply request_good; eauto.
    - eapply G; eauto.
  Qed.

  (** Every query is answered: the stored bytes are always readable. *)
  Theorem C48_rocksdb_reads l env q : good_codes ->
    let s := rdb_session H l in let ops := rdb_ops H enc dec env in
    (exists outs, db_get ops s q = Ok outs) \/ db_get ops s q = Err OperationOnQuery \/ db_get ops s q = Err NotIndexed.
  Proof.
    intros G. cbn zeta. destruct (rdb_good_history l G) as (h & -> & Gh & _). now apply C20_rdb_reads.
  Qed.
  (** No request makes the server's database panic. *)
  Theorem C48_rocksdb_no_panic l env o : good_codes -> good_op enc dec o ->
    fst (rdb_step H enc dec (rdb_session H l) (env, o)) <> Panic.
  Proof.
    intros G GO. destruct (rdb_good_history l G) as (h & -> & Gh & _). unfold rdb_step. cbn [fst snd]. now apply C20_rdb_no_panic.
  Qed.
  (** The two edge tables mirror each other. *)
  Theorem C48_rocksdb_mirror l a t b : good_codes ->
    mem (edge_key H (Edge a t b)) (d_edges (r_db (rdb_session H l))) = mem (edge_key H (Edge b t a)) (d_reversed (r_db (rdb_session H l))).
  Proof.
    intros G. destruct (rdb_good_history l G) as (h & -> & Gh & _). now apply C21_rdb_mirror.
  Qed.
  (** Unless there are bulk inserts, every edge has its outbound vertex. *)
  Theorem C48_rocksdb_outbound l e : good_codes ->
    (forall a items, In a l -> ~ issues alnum dec codes a (OBulkInsert items)) ->
    is_edge (RdbGraph.rgof dec (rdb_session H l)) e -> exists t, get (eout e) (gv (RdbGraph.rgof dec (rdb_session H l))) = Some t.
  Proof.
    intros G NB. destruct (rdb_good_history l G) as (h & -> & Gh & Hi). apply C22_rdb_outbound; [assumption|].
    apply Forall_forall. intros x Hx items E. destruct (Hi x Hx) as (a & Ha & I). rewrite E in I. exact (NB a items Ha I).
  Qed.
End Guarantees.

(** ** Single plugin calls *)

(** A plugin that never calls a writing method changes nothing. *)
Theorem C48_reader {S Env A} (ops : Env -> txn_ops S) envs (p : prog A) s r s' :
  (forall o, ~ may_write p o) -> run_prog ops envs 0 p s = (r, s') -> s' = s.
Proof.
  intros N E. destruct (run_prog_calls _ _ _ _ _ E) as (l & -> & _ & W). destruct l as [|x l]; [reflexivity|].
  elim (N (snd x)). apply W. now left.
Qed.

(** hello_world: the answer is the string made of [hello, ] (spelled out in bytes,
    with the comma and the space) and the text of the argument; the database is not touched, in particular not by a request
    for it. *)
Theorem C48_hello_world fmt : (forall b, utf8_valid (fmt b) = true) ->
  forall {S Env} (ops : Env -> txn_ops S) envs arg s, exists v, jraw v = RStr ([x68; x65; x6c; x6c; x6f; x2c; x20] ++ to_text fmt arg) /\
    run_prog ops envs 0 (hello_world fmt arg) s = (Ok v, s).
Proof.
  intros F S Env ops envs arg s. unfold hello_world. cbn [run_prog].
  destruct (Bool.bool_dec (wf_raw (RStr (greeting ++ to_text fmt arg))) true) as [E|N].
  - eexists. split; [|reflexivity]. reflexivity.
  - elim N. cbn [wf_raw]. apply utf8_iff, utf8_app; [apply utf8_iff; reflexivity|]. apply utf8_iff. now apply to_text_utf8.
Qed.

(** There is no rollback: what a plugin wrote before it failed stays. *)
Definition failing : code := fun _ => Write (WCreateVertex v1) (fun _ => Done (Err NotIndexed)).
Definition run_failing : request := RqExecutePlugin [] None.
Theorem C48_no_rollback alnum enc dec dbg env fresh envs :
  let a := Asked env fresh envs run_failing in
  fst (handle alnum enc dec (mem_step dbg) (mem_plugin dbg) [([], failing)] (Some mem_empty) a) = SErr (SInternal (BecausePlugin NotIndexed)) /\
  match snd (handle alnum enc dec (mem_step dbg) (mem_plugin dbg) [([], failing)] (Some mem_empty) a) with
  | Some m => db_get (mem_ops dbg env) m (q_vertex (vid v1)) = Ok [Vertices [v1]]
  | None => False
  end.
Proof. split; vm_compute; reflexivity. Qed.

(** A plugin that panics takes an in-memory database with it: every later call
    panics (a [get] is answered with nothing, see C35). *)
Definition panicking : code := fun _ => Done Panic.
Theorem C48_panic_poisons alnum enc dec dbg env fresh envs codes o :
  let a := Asked env fresh envs (RqExecutePlugin [] None) in
  forall st, st = snd (handle alnum enc dec (mem_step dbg) (mem_plugin dbg) (([], panicking) :: codes) (Some mem_empty) a) ->
  fst (mem_step dbg st o) = Panic.
Proof. intros a st ->. reflexivity. Qed.

(** ** A concrete session

    A plugin links the first two vertices it finds. *)
Definition linker : code := fun _ =>
  Read RAllVertices (fun r =>
    match r with
    | ROk (Ok a :: Ok b :: _) => Write (WCreateEdge (Edge (vid a) t_likes (vid b))) (fun r =>
        match r with ROk true => Done (Ok jnull) | _ => Done (Err NotIndexed) end)
    | _ => Done (Err NotIndexed)
    end).
Definition link_codes : list (bytes * code) := [(ib t_likes, linker); ([], failing)].
Definition link_session {Env} (env : Env) : list (asked Env) :=
  map (Asked env u1 (fun _ => env))
    [RqCreateVertex (to_vertex v1); RqExecutePlugin (ib t_likes) None; RqCreateVertex (to_vertex v2); RqPing;
     RqCreateVertex (PVertex None None); RqExecutePlugin (ib t_likes) None].
Example C48_case :
  (match session alnum0 enc0 dec0 (mem_step true) (mem_plugin true) link_codes (Some mem_empty) (link_session id_order) with
   | Some m => db_get (mem_ops true id_order) m QAllEdge
   | None => Panic
   end) = Ok [Edges [Edge (vid v1) t_likes (vid v2)]] /\
  db_get (rdb_ops hash0 enc0 dec0 ok_env)
    (session alnum0 enc0 dec0 (rdb_step hash0 enc0 dec0) (rdb_plugin hash0 enc0 dec0) link_codes rdb_empty (link_session ok_env)) QAllEdge =
    Ok [Edges [Edge (vid v1) t_likes (vid v2)]] /\
  good_codes enc0 dec0 link_codes /\
  (forall a items, In a (link_session ok_env) -> ~ issues alnum0 dec0 link_codes a (OBulkInsert items)).
Proof.
  assert (forall name c v o, In (name, c) link_codes -> may_write (c v) o -> exists e w, o = OCreateEdge e \/ o = OCreateVertex w) as W.
  { intros name c v o [E|[E|[]]] M; inversion E; subst; clear E.
    - destruct M as (r & M). destruct r as [[|[a| |] [|[b| |] l]]|]; cbn in M; try contradiction.
      destruct M as [-> |(r & M)]; [exists (Edge (vid a) t_likes (vid b)), v1; auto|]. destruct r as [[]|]; contradiction.
    - destruct M as [-> |(r & [])]. exists (Edge u1 t_likes u1), v1. auto. }
  split; [vm_compute; reflexivity|]. split; [vm_compute; reflexivity|]. split.
  - intros name c v o Hc M. destruct (W _ _ _ _ Hc M) as (e & w & [-> | ->]); exact I.
  - intros a items Ha [E|(name & arg & v & p & _ & Hp & M)].
    + apply in_map_iff in Ha as (rq & <- & Ha). cbn [a_fresh a_req] in E.
      repeat (destruct Ha as [<-|Ha]; [vm_compute in E; discriminate|]). destruct Ha.
    + destruct (W _ _ _ _ Hp M) as (e & w & [X|X]); discriminate.
Qed.
