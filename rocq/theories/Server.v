(** * The gRPC server and client: proto/src/server.rs, proto/src/client.rs.

    Here a message sent is the message received; Transport.v puts the prost
    wire format and tonic's message size limit in between.  The exception is
    the client-to-server stream of a bulk insertion, whose items may be
    transport errors.  The datastore is any [step] function; PropsProto.v uses
    the memory and RocksDB models. *)
From Coq Require Import String.
From Verif Require Import Base OMap Json Types Util Db Proto.

Set Implicit Arguments.
Local Open Scope list_scope.
Local Notation bytes := (list byte).

(** [serde_json::Value::Null]. *)
Definition jnull : json := exist _ RNull eq_refl.

(** What the message of an [internal] status says (server.rs 25-27, 33-36 and
    304: [format!("{err}")]; the texts are in Errors.v): an error of the
    database, a panic of the task that ran the call, or an error a plugin
    returned. *)
Inductive reason := BecauseError (e : error) | BecausePanic | BecausePlugin (e : error).

(** [tonic::Status], by code and, for the codes that carry one, message.
    [STransport] is a status the transport made (a broken stream, or a handler
    task that panicked). *)
Inductive status := SInvalidArgument (e : cerr) | SInternal (r : reason) | SNotFound | STransport.

(** [Result<Response<A>, Status>]. *)
Inductive srv (A : Type) := SOk (a : A) | SErr (s : status).
Arguments SOk {A}. Arguments SErr {A}.

(** indradb.proto, service [IndraDB]: the requests. *)
Inductive request :=
| RqPing
| RqSync
| RqCreateVertex (v : pvertex)
| RqCreateVertexFromType (t : pident)
| RqCreateEdge (e : pedge)
| RqGet (q : pquery)
| RqDelete (q : pquery)
| RqSetProperties (r : pset_req)
| RqBulkInsert (items : list (srv pbulk))
| RqIndexProperty (r : pindex_req)
| RqExecutePlugin (name : bytes) (arg : option pjson).

(** The responses. *)
Inductive response :=
| RsEmpty
| RsCreated (b : bool)
| RsUuid (u : puuid)
| RsStream (l : list (srv pout))
| RsPlugin (v : option pjson).

Section Server.
  Variable alnum : N -> bool.
  Variable enc : json -> bytes.
  Variable dec : bytes -> option json.
  (** A datastore: its states, what a call depends on besides the state, and
      the effect of a call of [Database]. *)
  Variables St Env : Type.
  Variable step : St -> Env * op -> outcome res * St.

  (** plugins/host/src/decl.rs 44-56: [Plugin::call] on a transaction: any
      function of the datastore and the argument. *)
  Definition plugin := St -> json -> outcome json * St.
  (** server.rs 119-124: the entries by name. *)
  Definition plugins := list (bytes * plugin).
  Fixpoint find_plugin (n : bytes) (ps : plugins) : option plugin :=
    match ps with
    | [] => None
    | (m, p) :: r => if list_eq_dec Byte.byte_eq_dec n m then Some p else find_plugin n r
    end.

  (** server.rs 29-31: [map_conversion_result], followed by [?]. *)
  Definition converted {A} (st : St) (x : cres A) (k : A -> srv response * St) : srv response * St :=
    match x with COk a => k a | CErr e => (SErr (SInvalidArgument e), st) end.

  (** server.rs 25-27, 33-36: [map_jh_indra_result] on the task running the call:
      an error of the database and a panic of the task are both [internal]. *)
  Definition blocking (st : St) (env : Env) (o : op) (k : res -> response) : srv response * St :=
    let (r, st') := step st (env, o) in
    match r with
    | Ok a => (SOk (k a), st')
    | Err e => (SErr (SInternal (BecauseError e)), st')
    | Panic => (SErr (SInternal BecausePanic), st')
    end.

  (** What the response message is made of.  The default cases do not arise:
      [exec] answers each call with its own kind of result. *)
  Definition created (r : res) : response := match r with RBoolean b => RsCreated b | _ => RsEmpty end.
  Definition new_uuid (r : res) : response := match r with RUuid u => RsUuid (to_uuid u) | _ => RsEmpty end.
  Definition outputs (r : res) : list outv := match r with ROut l => l | _ => [] end.

  (** server.rs 262-271: the stream is read to its end, stopping at the first
      transport error or unconvertible item. *)
  Fixpoint read_stream (items : list (srv pbulk)) : srv (list bulk_item) :=
    match items with
    | [] => SOk []
    | SErr s :: _ => SErr s
    | SOk it :: r =>
      match of_bulk alnum dec it with
      | CErr e => SErr (SInvalidArgument e)
      | COk a => match read_stream r with SOk l => SOk (a :: l) | SErr s => SErr s end
      end
    end.

  (** server.rs 194-313.  [fresh] is the id [Uuid::new_v1] draws in
      [create_vertex_from_type]. *)
  Definition serve (ps : plugins) (st : St) (env : Env) (fresh : uuid) (rq : request) : srv response * St :=
    match rq with
    (* 195-197 *)
    | RqPing => (SOk RsEmpty, st)
    (* 199-203 *)
    | RqSync => blocking st env OSync (fun _ => RsEmpty)
    (* 205-210 *)
    | RqCreateVertex v => converted st (of_vertex alnum v) (fun v => blocking st env (OCreateVertex v) created)
    (* 212-220 *)
    | RqCreateVertexFromType t =>
      converted st (of_ident alnum t) (fun t => blocking st env (OCreateVertexFromType fresh t) new_uuid)
    (* 222-227 *)
    | RqCreateEdge e => converted st (of_edge alnum e) (fun e => blocking st env (OCreateEdge e) created)
    (* 229-244: the handle of the task is dropped, so a panic only closes the
       channel: the client sees the end of an empty stream *)
    | RqGet q =>
      converted st (of_query alnum dec q) (fun q =>
        let (r, st') := step st (env, OGet q) in
        (SOk (RsStream
           match r with
           | Ok a => map (fun v => SOk (to_out enc v)) (outputs a)
           | Err e => [SErr (SInternal (BecauseError e))]
           | Panic => []
           end), st'))
    (* 246-251 *)
    | RqDelete q => converted st (of_query alnum dec q) (fun q => blocking st env (ODelete q) (fun _ => RsEmpty))
    (* 253-258 *)
    | RqSetProperties r =>
      converted st (of_set_req alnum dec r) (fun x =>
        let '(q, n, v) := x in blocking st env (OSetProperties q n v) (fun _ => RsEmpty))
    (* 260-277 *)
    | RqBulkInsert items =>
      match read_stream items with
      | SErr s => (SErr s, st)
      | SOk items => blocking st env (OBulkInsert items) (fun _ => RsEmpty)
      end
    (* 279-285 *)
    | RqIndexProperty r =>
      converted st (of_index_req alnum r) (fun n => blocking st env (OIndexProperty n) (fun _ => RsEmpty))
    (* 287-313: the plugin runs in the handler itself, so a panic of the plugin
       breaks the request *)
    | RqExecutePlugin name arg =>
      converted st (match arg with Some a => of_json dec a | None => COk jnull end) (fun arg =>
        match find_plugin name ps with
        | None => (SErr SNotFound, st)
        | Some p =>
          let (r, st') := p st arg in
          match r with
          | Ok v => (SOk (RsPlugin (Some (to_json enc v))), st')
          | Err e => (SErr (SInternal (BecausePlugin e)), st')
          | Panic => (SErr STransport, st')
          end
        end)
    end.

  (** ** The client *)

  (** client.rs 19-29: [ClientError]. *)
  Inductive client_error := CConversion (e : cerr) | CGrpc (s : status).
  Inductive cl (A : Type) := ClOk (a : A) | ClErr (e : client_error).

  (** The calls of [Client] (client.rs 97-262). *)
  Inductive ccall :=
  | CPing
  | CSync
  | CCreateVertex (v : vertex)
  | CCreateVertexFromType (t : ident)
  | CCreateEdge (e : edge)
  | CGet (q : query)
  | CDelete (q : query)
  | CSetProperties (q : query) (n : ident) (v : json)
  | CBulkInsert (items : list bulk_item)
  | CIndexProperty (n : ident)
  | CExecutePlugin (name : bytes) (arg : json).

  (** The message each call sends. *)
  Definition send (c : ccall) : request :=
    match c with
    | CPing => RqPing
    | CSync => RqSync
    | CCreateVertex v => RqCreateVertex (to_vertex v)
    | CCreateVertexFromType t => RqCreateVertexFromType (to_ident t)
    | CCreateEdge e => RqCreateEdge (to_edge e)
    | CGet q => RqGet (to_query enc q)
    | CDelete q => RqDelete (to_query enc q)
    | CSetProperties q n v => RqSetProperties (to_set_req enc (q, n, v))
    | CBulkInsert items => RqBulkInsert (map (fun it => SOk (to_bulk enc it)) items)
    | CIndexProperty n => RqIndexProperty (to_index_req n)
    | CExecutePlugin name arg => RqExecutePlugin name (Some (to_json enc arg))
    end.

  (** client.rs 155-158: each item of the stream, stopping at the first error. *)
  Fixpoint receive_all (l : list (srv pout)) : cl (list outv) :=
    match l with
    | [] => ClOk []
    | SErr s :: _ => ClErr _ (CGrpc s)
    | SOk m :: r =>
      match of_out alnum dec m with
      | CErr e => ClErr _ (CConversion e)
      | COk v => match receive_all r with ClOk vs => ClOk (v :: vs) | ClErr _ e => ClErr _ e end
      end
    end.

  (** What the client returns: nothing, a boolean, a uuid, values, or the
      plugin's answer. *)
  Inductive answer := AUnit | ABool (b : bool) | AUuid (u : uuid) | AValues (l : list outv) | AJson (v : json).

  (** How each call reads its response. *)
  Definition receive (c : ccall) (r : srv response) : cl answer :=
    match r with
    | SErr s => ClErr _ (CGrpc s)
    | SOk m =>
      match c, m with
      | CCreateVertex _, RsCreated b | CCreateEdge _, RsCreated b => ClOk (ABool b)
      | CCreateVertexFromType _, RsUuid u =>
        match of_uuid u with COk x => ClOk (AUuid x) | CErr e => ClErr _ (CConversion e) end
      | CGet _, RsStream l => match receive_all l with ClOk vs => ClOk (AValues vs) | ClErr _ e => ClErr _ e end
      | CExecutePlugin _ _, RsPlugin (Some v) =>
        match of_json dec v with COk x => ClOk (AJson x) | CErr e => ClErr _ (CConversion e) end
      | CExecutePlugin _ _, RsPlugin None => ClOk (AJson jnull)
      | _, _ => ClOk AUnit
      end
    end.

  (** A call through the client and the server. *)
  Definition remote (ps : plugins) (st : St) (env : Env) (fresh : uuid) (c : ccall) : cl answer * St :=
    let (r, st') := serve ps st env fresh (send c) in (receive c r, st').
End Server.
Arguments ClOk {A}. Arguments ClErr {A}.
