(** * The service of proto/indradb.proto: which messages each call takes and
    returns, and what it means for bytes to be a request or a response. *)
From Coq Require Import String.
From Verif Require Import Base OMap Json Types Proto Wire Schema Server Transport.

Set Implicit Arguments.
Local Open Scope string_scope.
Local Open Scope list_scope.
Local Notation bytes := (list byte).

(** proto/indradb.proto 331-375, one line per rpc. *)
Inductive arity := One (m : string) | Stream (m : string).
Definition service : list (string * arity * arity) := [
  ("Ping", One "google.protobuf.Empty", One "google.protobuf.Empty");
  ("Sync", One "google.protobuf.Empty", One "google.protobuf.Empty");
  ("CreateVertex", One "Vertex", One "CreateResponse");
  ("CreateVertexFromType", One "Identifier", One "Uuid");
  ("CreateEdge", One "Edge", One "CreateResponse");
  ("Get", One "Query", Stream "QueryOutputValue");
  ("Delete", One "Query", One "google.protobuf.Empty");
  ("SetProperties", One "SetPropertiesRequest", One "google.protobuf.Empty");
  ("BulkInsert", Stream "BulkInsertItem", One "google.protobuf.Empty");
  ("IndexProperty", One "IndexPropertyRequest", One "google.protobuf.Empty");
  ("ExecutePlugin", One "ExecutePluginRequest", One "ExecutePluginResponse")].

(** The call a request is for. *)
Definition rpc_of (rq : request) : string :=
  match rq with
  | RqPing => "Ping"
  | RqSync => "Sync"
  | RqCreateVertex _ => "CreateVertex"
  | RqCreateVertexFromType _ => "CreateVertexFromType"
  | RqCreateEdge _ => "CreateEdge"
  | RqGet _ => "Get"
  | RqDelete _ => "Delete"
  | RqSetProperties _ => "SetProperties"
  | RqBulkInsert _ => "BulkInsert"
  | RqIndexProperty _ => "IndexProperty"
  | RqExecutePlugin _ _ => "ExecutePlugin"
  end.
Definition method_name (m : method) : string :=
  match m with
  | MPing => "Ping"
  | MSync => "Sync"
  | MCreateVertex => "CreateVertex"
  | MCreateVertexFromType => "CreateVertexFromType"
  | MCreateEdge => "CreateEdge"
  | MGet => "Get"
  | MDelete => "Delete"
  | MSetProperties => "SetProperties"
  | MIndexProperty => "IndexProperty"
  | MExecutePlugin => "ExecutePlugin"
  end.

(** Requests and responses by field names; a streamed one is its messages, and
    possibly the error it breaks with. *)
Definition fields_of := list (string * dval).
Definition and_then {A B} (f : A -> B) (x : srv A) : srv B := match x with SOk a => SOk (f a) | SErr s => SErr s end.
Definition request_messages (rq : request) : list (srv fields_of) :=
  match rq with
  | RqPing | RqSync => [SOk []]
  | RqCreateVertex v => [SOk (vertex_message v)]
  | RqCreateVertexFromType t => [SOk (ident_message t)]
  | RqCreateEdge e => [SOk (edge_message e)]
  | RqGet q | RqDelete q => [SOk (query_message q)]
  | RqSetProperties r => [SOk (set_message r)]
  | RqBulkInsert items => map (and_then bulk_message) items
  | RqIndexProperty r => [SOk (index_message r)]
  | RqExecutePlugin name arg => [SOk (plugin_message (name, arg))]
  end.
Definition response_messages (r : response) : list (srv fields_of) :=
  match r with
  | RsEmpty => [SOk []]
  | RsCreated b => [SOk (created_message b)]
  | RsUuid u => [SOk (uuid_message u)]
  | RsStream l => map (and_then out_message) l
  | RsPlugin v => [SOk (plugin_result_message v)]
  end.
(** The type of a response. *)
Definition response_type (r : response) : arity :=
  match r with
  | RsEmpty => One "google.protobuf.Empty"
  | RsCreated _ => One "CreateResponse"
  | RsUuid _ => One "Uuid"
  | RsStream _ => Stream "QueryOutputValue"
  | RsPlugin _ => One "ExecutePluginResponse"
  end.

(** One message on the wire, or the error in its place. *)
Definition on_wire (m : string) (x : srv bytes) (y : srv fields_of) : Prop :=
  match x, y with
  | SOk b, SOk l => serializes m b l
  | SErr s, SErr s' => s = s'
  | _, _ => False
  end.
(** The bytes [w] are the request [rq], as any client of the published service
    may send it. *)
Definition is_request (rq : request) (w : wired) : Prop :=
  exists input output, In (rpc_of rq, input, output) service /\
    match input, w with
    | One m, WUnary me b => method_name me = rpc_of rq /\ Forall2 (on_wire m) [SOk b] (request_messages rq)
    | Stream m, WStream l => Forall2 (on_wire m) l (request_messages rq)
    | _, _ => False
    end.
(** The bytes [w] are the response [r] to [rq], as the published service has it. *)
Definition is_response (rq : request) (r : response) (w : replied) : Prop :=
  exists input output, In (rpc_of rq, input, output) service /\ response_type r = output /\
    match output, w with
    | One m, WReply b => Forall2 (on_wire m) [SOk b] (response_messages r)
    | Stream m, WReplies l => Forall2 (on_wire m) l (response_messages r)
    | _, _ => False
    end.
