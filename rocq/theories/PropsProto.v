(** * C33, C34, C35: protobuf conversions, malformed requests, remote calls. *)
From Coq Require Import String.
From Verif Require Import Base OMap Json Types Util Db Mem Rdb Spec QueryFacts SpecFacts JsonFacts UtilFacts
  MemFacts MemRefine MemHist KeyFacts RdbSpec RdbRep RdbWrite RdbPut RdbRefine RdbGraph RdbHist RdbCrash Stages Effects
  Claims PropsMem Examples PropsMemIndex PropsRdb PropsRdbIndex PropsData Utf8 Proto ProtoFacts Server Clean.

Set Implicit Arguments.
Local Open Scope list_scope.
Local Notation bytes := (list byte).

(** ** C33: converting to a message and back *)

Section RoundTrip.
  (** [alnum] is [char::is_alphanumeric]; [enc], [dec] the JSON text codec. *)
  Variable alnum : N -> bool.
  Variable enc : json -> bytes.
  Variable dec : bytes -> option json.
  (** The data holds identifiers made by [Identifier::new] and values the text
      codec preserves. *)
  Definition sendable (is : list ident) (vs : list json) : Prop :=
    Forall (valid_ident alnum) is /\ Forall (text_ok enc dec) vs.

  Theorem C33_query q : sendable (q_idents q) (q_values q) -> of_query alnum dec (to_query enc q) = COk q.
  Proof. intros []. now apply of_query_to. Qed.
  Theorem C33_output v : sendable (out_idents v) (out_values v) -> of_out alnum dec (to_out enc v) = COk v.
  Proof. intros []. now apply of_out_to. Qed.
  Theorem C33_bulk_item it : sendable (bulk_idents it) (bulk_values it) -> of_bulk alnum dec (to_bulk enc it) = COk it.
  Proof. intros []. now apply of_bulk_to. Qed.
  Theorem C33_uuid u : of_uuid (to_uuid u) = COk u.
  Proof. apply of_uuid_to. Qed.
  Theorem C33_identifier i : valid_ident alnum i -> of_ident alnum (to_ident i) = COk i.
  Proof. apply of_ident_to. Qed.
  Theorem C33_json v : text_ok enc dec v -> of_json dec (to_json enc v) = COk v.
  Proof. apply of_json_to. Qed.
  Theorem C33_vertex v : valid_ident alnum (vt v) -> of_vertex alnum (to_vertex v) = COk v.
  Proof. apply of_vertex_to. Qed.
  Theorem C33_edge e : valid_ident alnum (et e) -> of_edge alnum (to_edge e) = COk e.
  Proof. apply of_edge_to. Qed.
  Theorem C33_direction d : of_direction (to_direction d) = d.
  Proof. apply of_direction_to. Qed.
  Theorem C33_vertex_property u v : text_ok enc dec v -> of_vprop dec (to_vprop enc (u, v)) = COk (u, v).
  Proof. intros T. unfold of_vprop, to_vprop. cbn [required cbind pvp_id pvp_value fst snd]. rewrite of_uuid_to. cbn [cbind]. now rewrite of_json_to. Qed.
  Theorem C33_edge_property e v : valid_ident alnum (et e) -> text_ok enc dec v ->
    of_eprop alnum dec (to_eprop enc (e, v)) = COk (e, v).
  Proof.
    intros I T. unfold of_eprop, to_eprop. cbn [required cbind pep_edge pep_value fst snd]. rewrite of_edge_to by assumption.
    cbn [cbind]. now rewrite of_json_to.
  Qed.
  Theorem C33_named_property p : valid_ident alnum (np_name p) -> text_ok enc dec (np_value p) ->
    of_nprop alnum dec (to_nprop enc p) = COk p.
  Proof. apply of_nprop_to. Qed.
  Theorem C33_set_properties_request q n v : sendable (n :: q_idents q) (v :: q_values q) ->
    of_set_req alnum dec (to_set_req enc (q, n, v)) = COk (q, n, v).
  Proof.
    intros [I V]. apply Forall_cons_iff in I as [I1 I2], V as [V1 V2].
    unfold of_set_req, to_set_req. cbn [required cbind psr_q psr_name psr_value]. rewrite of_query_to by assumption.
    cbn [cbind]. rewrite of_ident_to by assumption. cbn [cbind]. now rewrite of_json_to.
  Qed.
  Theorem C33_index_request n : valid_ident alnum n -> of_index_req alnum (to_index_req n) = COk n.
  Proof. apply of_ident_to. Qed.

  (** Two different data never have the same message. *)
  Theorem C33_injective q q' : sendable (q_idents q) (q_values q) -> sendable (q_idents q') (q_values q') ->
    to_query enc q = to_query enc q' -> q = q'.
  Proof. intros S S' E. apply C33_query in S, S'. rewrite E in S. congruence. Qed.
End RoundTrip.

(** ** C34: malformed requests *)

Section Malformed.
  Variable alnum : N -> bool.
  Variable enc : json -> bytes.
  Variable dec : bytes -> option json.
  Variables St Env : Type.
  Variable step : St -> Env * op -> outcome res * St.

  (** A request all of whose required fields are present and valid
      (ProtoFacts.v, "Which messages are well formed"). *)
  Definition wf_request (rq : request) : Prop :=
    match rq with
    | RqPing | RqSync => True
    | RqCreateVertex v => wf_vertex alnum v
    | RqCreateVertexFromType t => wf_ident alnum t
    | RqCreateEdge e => wf_edge alnum e
    | RqGet q | RqDelete q => wf_query alnum dec q
    | RqSetProperties r => wf_set_req alnum dec r
    | RqBulkInsert items => Forall (fun x => exists it, x = SOk it /\ wf_bulk alnum dec it) items
    | RqIndexProperty r => wf_index_req alnum r
    | RqExecutePlugin _ arg => may (wf_json dec) arg
    end.

  Lemma converted_acc {A} (x : cres A) st k : ~ accepted x ->
    exists e, converted (St := St) st x k = (SErr (SInvalidArgument e), st).
  Proof. destruct x as [a|e]; cbn; [|eauto]. intros N. elim N. unfold accepted; eauto. Qed.

  (** A stream item that is neither a transport error nor malformed. *)
  Definition good_item_msg (x : srv pbulk) : Prop := exists it, x = SOk it /\ wf_bulk alnum dec it.

  Lemma read_stream_bad items : ~ Forall good_item_msg items ->
    exists s, read_stream alnum dec items = SErr s /\ ((exists e, s = SInvalidArgument e) \/ In (SErr s) items).
  Proof.
    induction items as [|x items IH]; intros N; [elim N; constructor|].
    destruct x as [it|s]; cbn [read_stream].
    - destruct (of_bulk alnum dec it) as [a|e] eqn:E.
      + destruct IH as (s & -> & Hs).
        * intros F. apply N. constructor; [|assumption]. exists it. split; [reflexivity|]. apply acc_bulk. unfold accepted; eauto.
        * exists s. split; [reflexivity|]. cbn. tauto.
      + exists (SInvalidArgument e). split; [reflexivity|]. left. eauto.
    - exists s. split; [reflexivity|]. cbn; auto.
  Qed.
  Lemma read_stream_good items : Forall good_item_msg items -> exists l, read_stream alnum dec items = SOk l.
  Proof.
    induction 1 as [|x items (it & -> & W) _ (l & IH)]; cbn [read_stream]; [eauto|].
    apply acc_bulk in W as (a & ->). rewrite IH. eauto.
  Qed.

  (** A request that is not well formed is rejected with [invalid_argument]
      and the database is not touched.  (Bulk streams, which may also break:
      next theorem.) *)
  Theorem C34_malformed ps st env fresh rq :
    (forall items, rq <> RqBulkInsert items) -> ~ wf_request rq ->
    exists e, serve alnum enc dec step ps st env fresh rq = (SErr (SInvalidArgument e), st).
  Proof.
    intros NB W. destruct rq; cbn [wf_request serve] in *; try (now elim W); try (now elim (NB items)).
    - apply converted_acc. now rewrite acc_vertex.
    - apply converted_acc. now rewrite acc_ident.
    - apply converted_acc. now rewrite acc_edge.
    - apply converted_acc. now rewrite acc_query.
    - apply converted_acc. now rewrite acc_query.
    - apply converted_acc. now rewrite acc_set_req.
    - apply converted_acc. now rewrite acc_index_req.
    - apply converted_acc. destruct arg as [a|].
      + rewrite acc_json. intros H. apply W. intros b E. congruence.
      + elim W. intros b E. discriminate.
  Qed.

  (** A stream with a malformed item or a transport error anywhere inserts
      nothing. *)
  Theorem C34_bulk_all_or_nothing ps st env fresh items :
    ~ wf_request (RqBulkInsert items) ->
    exists s, serve alnum enc dec step ps st env fresh (RqBulkInsert items) = (SErr s, st) /\
      ((exists e, s = SInvalidArgument e) \/ In (SErr s) items).
  Proof.
    intros W. cbn [wf_request serve] in *. destruct (read_stream_bad W) as (s & -> & Hs). eauto.
  Qed.
  (** If the stream did not break, the status is [invalid_argument]. *)
  Theorem C34_bulk_malformed ps st env fresh msgs :
    ~ Forall (wf_bulk alnum dec) msgs ->
    exists e, serve alnum enc dec step ps st env fresh (RqBulkInsert (map SOk msgs)) = (SErr (SInvalidArgument e), st).
  Proof.
    intros W. cbn [serve].
    assert (exists e, read_stream alnum dec (map SOk msgs) = SErr (SInvalidArgument e)) as (e & ->); [|eauto].
    induction msgs as [|m msgs IH]; [elim W; constructor|]. cbn [map read_stream].
    destruct (of_bulk alnum dec m) as [a|e] eqn:E; [|eauto]. destruct IH as (e & ->); [|eauto].
    intros F. apply W. constructor; [|assumption]. apply acc_bulk. unfold accepted; eauto.
  Qed.

  (** Well-formed requests are never called malformed: what the database does
      with them decides. *)
  Theorem C34_wellformed_accepted ps st env fresh rq e :
    wf_request rq -> fst (serve alnum enc dec step ps st env fresh rq) <> SErr (SInvalidArgument e).
  Proof.
    assert (forall A (x : cres A) k, accepted x -> (forall a, fst (k a) <> SErr (SInvalidArgument e)) ->
              fst (converted (St := St) st x k) <> SErr (SInvalidArgument e)) as CV.
    { intros A x k (a & ->) K. cbn. apply K. }
    assert (forall o k, fst (blocking step st env o k) <> SErr (SInvalidArgument e)) as BL.
    { intros o k. unfold blocking. destruct (step st (env, o)) as [[]]; discriminate. }
    destruct rq; cbn [wf_request serve]; intros W; auto.
    - discriminate.
    - apply CV; [now apply acc_vertex|auto].
    - apply CV; [now apply acc_ident|auto].
    - apply CV; [now apply acc_edge|auto].
    - apply CV; [now apply acc_query|]. intros q0. destruct (step st (env, OGet q0)) as [[]]; discriminate.
    - apply CV; [now apply acc_query|auto].
    - apply CV; [now apply acc_set_req|]. intros [[q n] v]. auto.
    - apply read_stream_good in W as (l & ->). auto.
    - apply CV; [now apply acc_index_req|auto].
    - apply CV.
      + destruct arg as [a|]; [apply acc_json, W; reflexivity|now apply acc_ok].
      + intros a. destruct (find_plugin name ps) as [p|]; [|discriminate]. destruct (p st a) as [[]]; discriminate.
  Qed.

  (** Responses: a client gives out the values of a [get] only if every message
      of the stream is well formed; otherwise the call fails. *)
  Theorem C34_response q msgs :
    (Forall (fun x => exists m, x = SOk m /\ wf_out alnum dec m) msgs /\ exists vs, receive alnum dec (CGet q) (SOk (RsStream msgs)) = ClOk (AValues vs) /\ length vs = length msgs) \/
    (Exists (fun x => forall m, x = SOk m -> ~ wf_out alnum dec m) msgs /\ exists e, receive alnum dec (CGet q) (SOk (RsStream msgs)) = ClErr e).
  Proof.
    cbn [receive]. induction msgs as [|[m|s] msgs IH]; cbn [receive_all].
    - left. split; [constructor|]. exists []. auto.
    - pose proof (acc_out alnum dec m) as AO. destruct (of_out alnum dec m) as [v|e].
      + assert (wf_out alnum dec m) as W by (apply AO; unfold accepted; eauto). destruct IH as [(F & vs & E & L)|(X & e & E)].
        * left. split; [constructor; eauto|]. destruct (receive_all alnum dec msgs); inversion E; subst. exists (v :: vs). cbn. auto.
        * right. split; [now constructor 2|]. destruct (receive_all alnum dec msgs); inversion E; subst. eauto.
      + right. split; [|eauto]. constructor. intros m' E' W. inversion E'; subst m'. apply AO in W as (a & Ea). discriminate.
    - right. split; [|eauto]. constructor. intros m E'. discriminate.
  Qed.
End Malformed.

(** ** C35: remote calls *)

(** The database call a client call stands for ([fresh] is the new vertex's
    id); ping and plugin calls have none. *)
Definition db_call (fresh : uuid) (c : ccall) : option op :=
  match c with
  | CPing | CExecutePlugin _ _ => None
  | CSync => Some OSync
  | CCreateVertex v => Some (OCreateVertex v)
  | CCreateVertexFromType t => Some (OCreateVertexFromType fresh t)
  | CCreateEdge e => Some (OCreateEdge e)
  | CGet q => Some (OGet q)
  | CDelete q => Some (ODelete q)
  | CSetProperties q n v => Some (OSetProperties q n v)
  | CBulkInsert items => Some (OBulkInsert items)
  | CIndexProperty n => Some (OIndexProperty n)
  end.
Definition call_idents (c : ccall) : list ident :=
  match c with
  | CPing | CSync | CExecutePlugin _ _ => []
  | CCreateVertex v => [vt v]
  | CCreateVertexFromType t => [t]
  | CCreateEdge e => [et e]
  | CGet q | CDelete q => q_idents q
  | CSetProperties q n _ => n :: q_idents q
  | CBulkInsert items => flat_map bulk_idents items
  | CIndexProperty n => [n]
  end.
Definition call_values (c : ccall) : list json :=
  match c with
  | CGet q | CDelete q => q_values q
  | CSetProperties q _ v => v :: q_values q
  | CBulkInsert items => flat_map bulk_values items
  | CExecutePlugin _ v => [v]
  | _ => []
  end.

(** What the client reports for a local result: the same value, [internal] and
    the same error, or [internal] and that the call panicked.  The exception is [get]: a panic is reported as
    an empty list of values. *)
Inductive reports : ccall -> outcome res -> cl answer -> Prop :=
| rep_unit c : reports c (Ok RUnit) (ClOk AUnit)
| rep_bool c b : reports c (Ok (RBoolean b)) (ClOk (ABool b))
| rep_uuid c u : reports c (Ok (RUuid u)) (ClOk (AUuid u))
| rep_values c l : reports c (Ok (ROut l)) (ClOk (AValues l))
| rep_err c e : reports c (Err e) (ClErr (CGrpc (SInternal (BecauseError e))))
| rep_panic c : (forall q, c <> CGet q) -> reports c Panic (ClErr (CGrpc (SInternal BecausePanic)))
| rep_get_panic q : reports (CGet q) Panic (ClOk (AValues [])).

Section Remote.
  Variable alnum : N -> bool.
  Variable enc : json -> bytes.
  Variable dec : bytes -> option json.
  Variables St Env : Type.
  Variable step : St -> Env * op -> outcome res * St.
  (** Calls answer with their own kind of result. *)
  Definition kinded : Prop := forall st env o r, fst (step st (env, o)) = Ok r ->
    match o with
    | OCreateVertex _ | OCreateEdge _ => exists b, r = RBoolean b
    | OCreateVertexFromType _ _ => exists u, r = RUuid u
    | OGet _ => exists l, r = ROut l
    | _ => r = RUnit
    end.
  Definition sendable_out (v : outv) : Prop := sendable alnum enc dec (out_idents v) (out_values v).

  Lemma receive_all_ok vs : Forall sendable_out vs ->
    receive_all alnum dec (map (fun v => SOk (to_out enc v)) vs) = ClOk vs.
  Proof.
    induction 1 as [|v vs S _ IH]; cbn [map receive_all]; [reflexivity|]. rewrite C33_output by assumption. now rewrite IH.
  Qed.

  Lemma bulk_all items : sendable alnum enc dec (flat_map bulk_idents items) (flat_map bulk_values items) ->
    read_stream alnum dec (map (fun it => SOk (to_bulk enc it)) items) = SOk items.
  Proof.
    induction items as [|it items IH]; intros [I V]; cbn [map read_stream]; [reflexivity|].
    cbn [flat_map] in I, V. apply Forall_app in I as [I1 I2], V as [V1 V2].
    rewrite C33_bulk_item by (split; assumption). now rewrite IH by (split; assumption).
  Qed.

  (** One call through client and server: the same effect and the same result
      as the local call. *)
  Theorem C35_remote_is_local_partial ps st env fresh c o r st' :
    kinded -> db_call fresh c = Some o -> sendable alnum enc dec (call_idents c) (call_values c) ->
    step st (env, o) = (r, st') ->
    (forall l, r = Ok (ROut l) -> Forall sendable_out l) ->
    exists a, remote alnum enc dec step ps st env fresh c = (a, st') /\ reports c r a.
  Proof.
    intros K D S E A. specialize (K st env o). rewrite E in K. cbn [fst] in K.
    assert (forall k, (forall q, c <> CGet q) ->
      (forall x, r = Ok x -> reports c r (receive alnum dec c (SOk (k x)))) ->
      exists a, (let (y, s) := blocking step st env o k in (receive alnum dec c y, s)) = (a, st') /\ reports c r a) as B.
    { intros k NG HK. unfold blocking. rewrite E. destruct r as [x|e|].
      - eexists. split; [reflexivity|]. now apply HK.
      - eexists. split; [reflexivity|]. constructor.
      - eexists. split; [reflexivity|]. now constructor. }
    unfold remote. destruct c; cbn [db_call] in D; try discriminate; inversion D; subst o; clear D;
      cbn [send serve call_idents call_values] in *.
    - apply B; [discriminate|]. intros x ->. specialize (K x eq_refl). subst. constructor.
    - destruct S as [S _]. apply Forall_inv in S. rewrite C33_vertex by assumption. cbn [converted].
      apply B; [discriminate|]. intros x ->. destruct (K x eq_refl) as (b & ->). constructor.
    - destruct S as [S _]. apply Forall_inv in S. rewrite C33_identifier by assumption. cbn [converted].
      apply B; [discriminate|]. intros x ->. destruct (K x eq_refl) as (u & ->). cbn [new_uuid receive].
      rewrite C33_uuid. constructor.
    - destruct S as [S _]. apply Forall_inv in S. rewrite C33_edge by assumption. cbn [converted].
      apply B; [discriminate|]. intros x ->. destruct (K x eq_refl) as (b & ->). constructor.
    - rewrite C33_query by assumption. cbn [converted]. rewrite E. destruct r as [x|e|].
      + destruct (K x eq_refl) as (l & ->). cbn [outputs receive]. rewrite receive_all_ok by now apply A.
        eexists. split; [reflexivity|]. constructor.
      + eexists. split; [reflexivity|]. constructor.
      + eexists. split; [reflexivity|]. constructor.
    - rewrite C33_query by assumption. cbn [converted]. 
      apply B; [discriminate|]. intros x ->. specialize (K x eq_refl). subst. constructor.
    - rewrite C33_set_properties_request by assumption. cbn [converted].
      apply B; [discriminate|]. intros x ->. specialize (K x eq_refl). subst. constructor.
    - rewrite bulk_all by assumption. 
      apply B; [discriminate|]. intros x ->. specialize (K x eq_refl). subst. constructor.
    - destruct S as [S _]. apply Forall_inv in S. rewrite C33_index_request by assumption. cbn [converted].
      apply B; [discriminate|]. intros x ->. specialize (K x eq_refl). subst. constructor.
  Qed.

  (** Ping does nothing; an unknown plugin is reported and nothing happens. *)
  Theorem C35_ping_partial ps st env fresh : remote alnum enc dec step ps st env fresh CPing = (ClOk AUnit, st).
  Proof. reflexivity. Qed.

  (** A plugin call runs the plugin on the database with the same argument and
      reports its answer. *)
  Theorem C35_plugin_partial ps st env fresh name arg p r st' :
    text_ok enc dec arg -> find_plugin name ps = Some p -> p st arg = (r, st') ->
    (forall v, r = Ok v -> text_ok enc dec v) ->
    remote alnum enc dec step ps st env fresh (CExecutePlugin name arg) =
      (match r with Ok v => ClOk (AJson v) | Err e => ClErr (CGrpc (SInternal (BecausePlugin e))) | Panic => ClErr (CGrpc STransport) end, st').
  Proof.
    intros T F E A. unfold remote. cbn [send serve]. rewrite C33_json by assumption. cbn [converted]. rewrite F, E.
    destruct r as [v|e|]; cbn [receive]; [|reflexivity|reflexivity]. rewrite C33_json by now apply A. reflexivity.
  Qed.

  (** ** Whole sessions *)

  (** The remote and the local results of a list of calls. *)
  Fixpoint remote_trace (ps : plugins St) (st : St) (cs : list (Env * uuid * ccall)) : list (cl answer) * St :=
    match cs with
    | [] => ([], st)
    | (env, fresh, c) :: cs' =>
      let (a, st') := remote alnum enc dec step ps st env fresh c in
      let (l, st'') := remote_trace ps st' cs' in (a :: l, st'')
    end.
  Fixpoint local_trace (st : St) (os : list (Env * op)) : list (outcome res) * St :=
    match os with
    | [] => ([], st)
    | x :: os' => let (r, st') := step st x in let (l, st'') := local_trace st' os' in (r :: l, st'')
    end.
  Definition sendable_answer (r : outcome res) : Prop := forall l, r = Ok (ROut l) -> Forall sendable_out l.

  Theorem C35_session_partial ps cs : forall st os,
    kinded -> Forall2 (fun x y => fst (fst x) = fst y /\ db_call (snd (fst x)) (snd x) = Some (snd y)) cs os ->
    Forall (fun x => sendable alnum enc dec (call_idents (snd x)) (call_values (snd x))) cs ->
    Forall sendable_answer (fst (local_trace st os)) ->
    Forall2 (fun x p => reports (snd x) (fst p) (snd p)) cs
            (combine (fst (local_trace st os)) (fst (remote_trace ps st cs))) /\
    snd (remote_trace ps st cs) = snd (local_trace st os).
  Proof.
    induction cs as [|[[env fresh] c] cs IH]; intros st os K F S A; inversion F as [|? [env' o] ? os' [Ee Eo] F']; subst.
    - cbn. split; [constructor|reflexivity].
    - cbn [fst snd] in Ee, Eo. subst env'. apply Forall_cons_iff in S as [S1 S2].
      cbn [local_trace remote_trace] in *. destruct (step st (env, o)) as [r st'] eqn:E.
      destruct (local_trace st' os') as [rs st''] eqn:L. cbn [fst snd] in *. apply Forall_cons_iff in A as [A1 A2].
      destruct (@C35_remote_is_local_partial ps st env fresh c o r st' K Eo S1 E A1) as (a & -> & R).
      specialize (IH st' os' K F' S2). rewrite L in IH. destruct (IH A2) as [IH1 IH2].
      destruct (remote_trace ps st' cs) as [ans st3]. cbn [fst snd combine] in *. split; [|assumption].
      constructor; [exact R|assumption].
  Qed.
End Remote.

(** ** Servers over the two backends *)

(** The calls [cs], as database calls. *)
Definition as_calls {Env} (cs : list (Env * uuid * ccall)) (os : list (Env * op)) : Prop :=
  Forall2 (fun x y => fst (fst x) = fst y /\ db_call (snd (fst x)) (snd x) = Some (snd y)) cs os.
Definition all_sendable {Env} alnum enc dec (cs : list (Env * uuid * ccall)) : Prop :=
  Forall (fun x => sendable alnum enc dec (call_idents (snd x)) (call_values (snd x))) cs.

Lemma exec_kinded {S} (ops : txn_ops S) s o r : fst (exec ops s o) = Ok r ->
  match o with
  | OCreateVertex _ | OCreateEdge _ => exists b, r = RBoolean b
  | OCreateVertexFromType _ _ => exists u, r = RUuid u
  | OGet _ => exists l, r = ROut l
  | _ => r = RUnit
  end.
Proof.
  assert (forall A (f : A -> res) (x : outcome A * S), fst (resw f x) = Ok r -> exists a, r = f a) as W.
  { intros A f [[a|e|] s']; cbn; intros E; inversion E; eauto. }
  destruct o; cbn [exec]; intros E; try (apply W in E as (a & ->); eauto; fail).
  cbn [fst] in E. destruct (db_get ops s q); cbn in E; inversion E; eauto.
Qed.
Lemma mem_kinded dbg : kinded (mem_step dbg).
Proof.
  intros [m|] env o r; cbn [mem_step fst snd]; [|discriminate].
  pose proof (@exec_kinded _ (mem_ops dbg env) m o r) as K.
  destruct (exec (mem_ops dbg env) m o) as [[x|e|] m']; cbn [fst] in *; auto; discriminate.
Qed.
Lemma rdb_kinded H enc dec : kinded (rdb_step H enc dec).
Proof. intros s env o r. unfold rdb_step. cbn [fst snd]. apply exec_kinded. Qed.

Section Backends.
  Variable alnum : N -> bool.
  Variable enc : json -> bytes.
  Variable dec : bytes -> option json.
  Notation P := (valid_ident alnum).
  Notation Q := (text_ok enc dec).

  Lemma sendable_item it : sendable alnum enc dec (bulk_idents it) (bulk_values it) -> clean_item P Q it.
  Proof.
    intros [I V]. destruct it; cbn in *; try (now apply Forall_inv in I).
    - apply Forall_inv in I, V. auto.
    - apply Forall_cons_iff in I as [_ I]. apply Forall_inv in I, V. auto.
  Qed.
  Lemma sendable_op fresh c o : db_call fresh c = Some o -> sendable alnum enc dec (call_idents c) (call_values c) -> clean_op P Q o.
  Proof.
    intros D [I V]. destruct c; cbn in *; inversion D; subst; cbn; auto; try (now apply Forall_inv in I).
    - apply Forall_inv in I, V. auto.
    - clear D. induction items as [|it items IH]; cbn in *; [constructor|]. apply Forall_app in I as [I1 I2], V as [V1 V2].
      constructor; [apply sendable_item; split; assumption|auto].
  Qed.
  Lemma sendable_ops {Env} (cs : list (Env * uuid * ccall)) os : as_calls cs os -> all_sendable alnum enc dec cs ->
    Forall (fun x => clean_op P Q (snd x)) os.
  Proof.
    intros F. induction F as [|[[e f] c] [e' o] cs os [_ D] F IH]; intros S; [constructor|].
    apply Forall_cons_iff in S as [S1 S2]. constructor; [|auto]. eapply sendable_op; eauto.
  Qed.

  (** Memory, debug build, only existing elements are given properties. *)
  Lemma mem_clean h : tidy_history true h -> Forall (fun x => clean_op P Q (snd x)) h ->
    forall m, mem_run true h = Some m -> clean P Q (gof m).
  Proof.
    induction h as [|x h IH] using rev_ind; intros T C m Hm.
    - cbn in Hm. inversion Hm. rewrite gof_empty. apply clean_empty.
    - apply Forall_app in C as [C1 C2]. apply Forall_inv in C2. pose proof (tidy_prefix T) as T1.
      rewrite mem_run_snoc in Hm. pose proof Hm as Hm2. apply mem_step_Some in Hm2 as (m0 & r & E0 & _ & _ & E).
      rewrite E0 in E. destruct x as [ord o]. destruct (tidy_step ord o T1 E0 E) as [(m' & Em & SP)|(_ & Em & _)]; [|discriminate].
      inversion Em; subst m'. apply spec_step_resolves in SP as (a & R & ->).
      apply clean_apply; [now apply IH|]. eapply resolves_clean; eauto.
  Qed.
  Lemma mem_answers os : forall h, tidy_history true (h ++ os) -> Forall (fun x => clean_op P Q (snd x)) (h ++ os) ->
    Forall (sendable_answer alnum enc dec) (fst (local_trace (mem_step true) (mem_run true h) os)).
  Proof.
    induction os as [|[ord o] os IH]; intros h T C; [constructor|].
    specialize (IH (h ++ [(ord, o)])). rewrite <- !app_assoc in IH. cbn [app] in IH. specialize (IH T C).
    rewrite mem_run_snoc in IH. cbn [local_trace]. destruct (mem_step true (mem_run true h) (ord, o)) as [r st'] eqn:E.
    cbn [snd] in IH. destruct (local_trace (mem_step true) st' os) as [rs st'']. cbn [fst] in *. constructor; [|assumption].
    intros l ->. assert (tidy_history true h) as Th.
    { clear - T. intros h1 y h2 m -> Hr. apply (T h1 y (h2 ++ (ord, o) :: os) m); [|assumption]. now rewrite <- app_assoc. }
    destruct (mem_run true h) as [m|] eqn:Hm; [|inversion E].
    apply Forall_app in C as [C1 C2]. pose proof (mem_clean Th C1 Hm) as CG.
    destruct (tidy_step ord o Th Hm E) as [(m' & Em & SP)|(D & _)]; [|discriminate].
    apply spec_step_resolves in SP as (a & R & _). apply (resolves_answer CG) in R.
    eapply Forall_impl; [|exact R]. intros v [H1 H2]. split; assumption.
  Qed.

  (** A server over a fresh in-memory database (debug build): any session of
      calls gives the same answers and leaves the same database as the local
      calls. *)
  Theorem C35_memory_session_partial ps cs os :
    as_calls cs os -> all_sendable alnum enc dec cs -> tidy_history true os ->
    Forall2 (fun x p => reports (snd x) (fst p) (snd p)) cs
            (combine (fst (local_trace (mem_step true) (Some mem_empty) os))
                     (fst (remote_trace alnum enc dec (mem_step true) ps (Some mem_empty) cs))) /\
    snd (remote_trace alnum enc dec (mem_step true) ps (Some mem_empty) cs) = mem_run true os.
  Proof.
    intros F S T. pose proof (sendable_ops F S) as C.
    destruct (@C35_session_partial alnum enc dec _ _ (mem_step true) ps cs (Some mem_empty) os (@mem_kinded true) F S) as [R1 R2].
    - apply (@mem_answers os []); assumption.
    - split; [assumption|]. rewrite R2. clear. unfold mem_run. generalize (Some mem_empty) as st.
      induction os as [|x os IH]; intros st; [reflexivity|]. cbn [local_trace fold_left]. rewrite <- IH.
      destruct (mem_step true st x) as [r st']. cbn [snd]. destruct (local_trace (mem_step true) st' os). reflexivity.
  Qed.

  (** RocksDB. *)
  Variable H : list byte -> N.
  Notation rgof := (rgof dec).
  Notation run := (rdb_run H enc dec).
  Lemma rdb_clean h : rtidy_history H enc dec h -> Forall (fun x => clean_op P Q (snd x)) h -> clean P Q (rgof (run h)).
  Proof.
    induction h as [|x h IH] using rev_ind; intros T C.
    - assert (rgof (run []) = g_empty) as -> by (unfold RdbGraph.rgof, g_empty; cbn; reflexivity). apply clean_empty.
    - apply Forall_app in C as [C1 C2]. apply Forall_inv in C2. pose proof (@rtidy_prefix H enc dec h x T) as T1.
      rewrite rdb_run_snoc. destruct (exec (rdb_ops H enc dec (fst x)) (run h) (snd x)) as [r s'] eqn:E. cbn [snd].
      pose proof T as (G & SE & _). apply Forall_app in G as [_ G], SE as [_ SE]. apply Forall_inv in G, SE.
      destruct (@rdb_tidy_step H enc dec h (fst x) (snd x) r s' T1 G E) as [(a & R & ->)|(_ & _ & D & _)].
      2:{ destruct (IH T1 C1) as [c1 c2 c3 c4]. unfold RdbGraph.rgof, is_edge in *. rewrite D in *. split; assumption. }
      apply clean_r_apply; [now apply IH|]. eapply resolves_clean; eauto.
  Qed.
  Lemma rdb_answers os : forall h, rtidy_history H enc dec (h ++ os) -> Forall (fun x => clean_op P Q (snd x)) (h ++ os) ->
    Forall (sendable_answer alnum enc dec) (fst (local_trace (rdb_step H enc dec) (run h) os)).
  Proof.
    induction os as [|[env o] os IH]; intros h T C; [constructor|].
    specialize (IH (h ++ [(env, o)])). rewrite <- !app_assoc in IH. cbn [app] in IH. specialize (IH T C).
    rewrite rdb_run_snoc in IH. cbn [local_trace]. destruct (rdb_step H enc dec (run h) (env, o)) as [r st'] eqn:E.
    unfold rdb_step in E. cbn [fst snd] in E, IH. rewrite E in IH. cbn [snd] in IH.
    destruct (local_trace (rdb_step H enc dec) st' os) as [rs st'']. cbn [fst] in *. constructor; [|assumption].
    intros l ->. assert (rtidy_history H enc dec h) as Th.
    { clear - T. destruct T as (G & SE & T). unfold rtidy_history, good_history, steady in *.
      apply Forall_app in G as [G _], SE as [SE _]. conj; auto. intros h1 y h2 ->.
      apply (T h1 y (h2 ++ (env, o) :: os)). now rewrite <- app_assoc. }
    apply Forall_app in C as [C1 C2]. pose proof (rdb_clean Th C1) as CG.
    pose proof T as (G & _). apply Forall_app in G as [_ G]. apply Forall_inv in G.
    destruct (@rdb_tidy_step H enc dec h env o _ st' Th G E) as [(a & R & _)|(_ & D & _)]; [|discriminate].
    apply (resolves_answer CG) in R. eapply Forall_impl; [|exact R]. intros v [H1 H2]. split; assumption.
  Qed.

  (** A server over a fresh RocksDB database. *)
  Theorem C35_rocksdb_session_partial ps cs os :
    as_calls cs os -> all_sendable alnum enc dec cs -> rtidy_history H enc dec os ->
    Forall2 (fun x p => reports (snd x) (fst p) (snd p)) cs
            (combine (fst (local_trace (rdb_step H enc dec) rdb_empty os))
                     (fst (remote_trace alnum enc dec (rdb_step H enc dec) ps rdb_empty cs))) /\
    snd (remote_trace alnum enc dec (rdb_step H enc dec) ps rdb_empty cs) = run os.
  Proof.
    intros F S T. pose proof (sendable_ops F S) as C.
    destruct (@C35_session_partial alnum enc dec _ _ (rdb_step H enc dec) ps cs rdb_empty os (@rdb_kinded H enc dec) F S) as [R1 R2].
    - apply (@rdb_answers os []); assumption.
    - split; [assumption|]. rewrite R2. clear. unfold rdb_run. generalize rdb_empty as st.
      induction os as [|x os IH]; intros st; [reflexivity|]. cbn [local_trace fold_left]. rewrite <- IH.
      destruct (rdb_step H enc dec st x) as [r st']. cbn [snd]. destruct (local_trace (rdb_step H enc dec) st' os). reflexivity.
  Qed.
End Backends.

(** ** Concrete cases *)

(** ASCII letters and digits. *)
Definition alnum0 (c : N) : bool :=
  ((48 <=? c) && (c <=? 57) || (65 <=? c) && (c <=? 90) || (97 <=? c) && (c <=? 122))%N.
Lemma ascii_valid i : (length (ib i) <=? 255)%nat = true ->
  forallb (fun b => (Byte.to_N b <? 128)%N && char_ok alnum0 (Byte.to_N b)) (ib i) = true -> valid_ident alnum0 i.
Proof.
  intros L A. exists (ib i). apply C36_identifier_new. split; [reflexivity|]. split; [now apply Nat.leb_le|].
  exists (map Byte.to_N (ib i)). rewrite forallb_forall in A.
  assert (forall b, In b (ib i) -> (Byte.to_N b < 128)%N /\ char_ok alnum0 (Byte.to_N b) = true) as A'.
  { intros b Hb. apply A in Hb. apply andb_true_iff in Hb as [H1 H2]. now apply N.ltb_lt in H1. }
  clear A L. induction (ib i) as [|b l IH]; cbn; [repeat split; constructor|].
  destruct (A' b (or_introl eq_refl)) as [H1 H2]. destruct IH as (I1 & I2 & I3); [intros; apply A'; now right|].
  conj.
  - constructor; [|assumption]. unfold scalar_value. lia.
  - rewrite <- I2. unfold utf8_enc. apply N.ltb_lt in H1. rewrite H1. cbn. f_equal. symmetry. apply byte_of_bN.
  - constructor; [|assumption]. unfold char_ok in H2. rewrite !orb_true_iff, !N.eqb_eq in H2. tauto.
Qed.

(** A session on both backends whose calls are all sendable, with an indexed
    lookup and a pipe answered remotely. *)
Definition s_calls : list ccall :=
  [CCreateVertex v1; CCreateVertexFromType t_person; CCreateEdge e12; CIndexProperty n_name;
   CSetProperties (q_vertex u1) n_name j_3; CGet (QVertexWithPropertyValue n_name j_3);
   CGet (QPipeProperty (QPipe (q_vertex u1) Outbound 10 (Some t_likes)) None);
   CBulkInsert [BVertex v3; BVProp u3 n_name j_bob]; CDelete (q_vertex u2); CSync].
Definition s_ops : list op :=
  [OCreateVertex v1; OCreateVertexFromType u2 t_person; OCreateEdge e12; OIndexProperty n_name;
   OSetProperties (q_vertex u1) n_name j_3; OGet (QVertexWithPropertyValue n_name j_3);
   OGet (QPipeProperty (QPipe (q_vertex u1) Outbound 10 (Some t_likes)) None);
   OBulkInsert [BVertex v3; BVProp u3 n_name j_bob]; ODelete (q_vertex u2); OSync].
Definition with_env {Env} (e : Env) (cs : list ccall) : list (Env * uuid * ccall) := map (fun c => (e, u2, c)) cs.

Lemma s_sendable {Env} (e : Env) : all_sendable alnum0 enc0 dec0 (with_env e s_calls).
Proof.
  repeat (apply Forall_cons; [split; cbn; repeat (apply Forall_cons; [first [reflexivity|apply ascii_valid; reflexivity]|]); apply Forall_nil|]).
  apply Forall_nil.
Qed.

Example C35_case :
  as_calls (with_env ok_env s_calls) (ok_calls s_ops) /\ all_sendable alnum0 enc0 dec0 (with_env ok_env s_calls) /\
  good_history enc0 dec0 (ok_calls s_ops) /\
  nth_error (fst (remote_trace alnum0 enc0 dec0 (rdb_step hash0 enc0 dec0) [] rdb_empty (with_env ok_env s_calls))) 5 =
    Some (ClOk (AValues [Vertices [v1]])) /\
  nth_error (fst (remote_trace alnum0 enc0 dec0 (mem_step true) [] (Some mem_empty) (with_env id_order s_calls))) 5 =
    Some (ClOk (AValues [Vertices [v1]])).
Proof.
  conj; [repeat constructor|apply s_sendable|good0| |]; vm_compute; reflexivity.
Qed.

(** C33: a query with every kind of parameter, an output and a bulk item that
    satisfy the hypotheses. *)
Definition q_rich : query :=
  QCount (QPipeWithPropertyValue (QInclude (QPipe (QPipeWithPropertyPresence
    (QRangeVertex 7 (Some t_person) (Some u1)) n_age false) Inbound 3 (Some t_likes))) n_name j_bob true).
Definition o_rich : outv := EdgeProperties [EProps e12 [NProp n_name j_true; NProp n_age j_3]].
Example C33_case :
  sendable alnum0 enc0 dec0 (q_idents q_rich) (q_values q_rich) /\ length (q_idents q_rich) = 4 /\ length (q_values q_rich) = 1 /\
  sendable alnum0 enc0 dec0 (out_idents o_rich) (out_values o_rich) /\
  sendable alnum0 enc0 dec0 (bulk_idents (BEProp e12 n_name j_bob)) (bulk_values (BEProp e12 n_name j_bob)).
Proof.
  conj; try reflexivity; (split; cbn; repeat (apply Forall_cons; [first [reflexivity|apply ascii_valid; reflexivity]|]); apply Forall_nil).
Qed.

(** C34: a query below a count is missing; a 15-byte id in a bulk stream after
    a good item. *)
Definition short_uuid : puuid := PUuid (repeat x00 15).
Example C34_case :
  ~ wf_request alnum0 dec0 (RqDelete (PQInclude (Some (PQCount (Some PQNone))))) /\
  wf_request alnum0 dec0 (RqDelete (to_query enc0 (QPipe (q_vertex u1) Outbound 10 (Some t_likes)))) /\
  ~ Forall (wf_bulk alnum0 dec0) [to_bulk enc0 (BVertex v1); PBVertex (PVertex (Some short_uuid) (Some (to_ident t_person)))] /\
  wf_bulk alnum0 dec0 (to_bulk enc0 (BVertex v1)) /\
  snd (serve alnum0 enc0 dec0 (mem_step true) [] (Some mem_empty) id_order u1
    (RqBulkInsert (map SOk [to_bulk enc0 (BVertex v1); PBVertex (PVertex (Some short_uuid) (Some (to_ident t_person)))]))) =
    Some mem_empty.
Proof.
  conj.
  - intros W. inversion W as [| | | | | | | | | | | | |i Wi|]; subst. inversion Wi as [| | | | | | | | | | | | | |i Wj]; subst. inversion Wj.
  - cbn [wf_request]. apply (@acc_query alnum0 dec0). exists (QPipe (q_vertex u1) Outbound 10 (Some t_likes)). apply C33_query.
    split; cbn; [constructor; [apply ascii_valid; reflexivity|constructor]|constructor].
  - intros F. apply Forall_cons_iff in F as [_ F]. apply Forall_inv in F. destruct F as [(a & E & W) _]. cbn in E. inversion E; subst.
    discriminate.
  - apply acc_bulk. exists (BVertex v1). apply C33_bulk_item. split; cbn; [constructor; [apply ascii_valid; reflexivity|constructor]|constructor].
  - vm_compute. reflexivity.
Qed.

(** C35 fails for [get] calls that panic: the client is told the query had no
    results.  After one such call on an in-memory server every later [get]
    returns an empty list, whatever was stored. *)
Theorem C35_get_panic_refuted dbg ps : exists cs st,
  all_sendable alnum0 enc0 dec0 (with_env id_order cs) /\
  remote_trace alnum0 enc0 dec0 (mem_step dbg) ps (Some mem_empty) (with_env id_order cs) =
    ([ClOk (ABool true); ClOk (AValues [])], st) /\
  fst (mem_step dbg (snd (mem_step dbg (Some mem_empty) (id_order, OCreateVertex vmax)))
         (id_order, OGet (QPipeProperty (q_vertex umax) None))) = Panic /\
  (forall ord q fresh, sendable alnum0 enc0 dec0 (q_idents q) (q_values q) ->
     remote alnum0 enc0 dec0 (mem_step dbg) ps st ord fresh (CGet q) = (ClOk (AValues []), st)).
Proof.
  exists [CCreateVertex vmax; CGet (QPipeProperty (q_vertex umax) None)], None. conj.
  - repeat (apply Forall_cons; [split; cbn; repeat (apply Forall_cons; [first [reflexivity|apply ascii_valid; reflexivity]|]); apply Forall_nil|]).
    apply Forall_nil.
  - destruct dbg; vm_compute; reflexivity.
  - destruct dbg; vm_compute; reflexivity.
  - intros ord q fresh S. unfold remote. cbn [send serve]. now rewrite C33_query.
Qed.

(** C34 does not cover the direction of a pipe: a number that is no direction
    is accepted and means outbound. *)
Theorem C34_unknown_direction_refuted alnum dec i l t d q : d <> 1%Z ->
  of_query alnum dec (PQPipe (Some i) d l t) = COk q -> exists i' t', q = QPipe i' Outbound l t'.
Proof.
  intros D. cbn [of_query]. destruct (coption (of_ident alnum) t) as [t'|]; cbn [cbind]; [|discriminate].
  destruct (of_query alnum dec i) as [i'|]; cbn [cbind]; [|discriminate]. unfold of_direction.
  apply Z.eqb_neq in D. rewrite D. intros E. inversion E. eauto.
Qed.
