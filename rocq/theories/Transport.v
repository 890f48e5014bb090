(** * Calls over the wire: proto/src/client.rs and proto/src/server.rs with the
    messages between them as bytes (Wire.v).

    tonic 0.12.3, codec/decode.rs ([Streaming::decode_chunk]): a message longer
    than the receiver's limit is refused, then prost decodes it; either failure
    ends the call with a status.  Status codes the transport makes are not
    distinguished ([STransport]).  Not modelled: HTTP/2 framing, compression
    (off here), connection failures other than broken bulk streams. *)
From Verif Require Import Base OMap Json Types Util Db Proto Wire Server.

Set Implicit Arguments.
Local Open Scope list_scope.
Local Notation bytes := (list byte).

(** What the receiver makes of a message's bytes. *)
Definition arrive {M} (dec : nat -> M -> bytes -> option M) (dflt : M) (b : bytes) : option M :=
  if (max_message <? lenN b)%N then None else decode dec dflt b.
(** A message sent and received. *)
Definition carry {M} (enc : M -> bytes) (dec : nat -> M -> bytes -> option M) (dflt : M) (m : M) : option M :=
  arrive dec dflt (enc m).

(** indradb.proto, service [IndraDB]: the request types of the calls that take
    one message; [None]: the request could not be received and the handler of
    server.rs is not run. *)
Inductive method := MPing | MSync | MCreateVertex | MCreateVertexFromType | MCreateEdge | MGet | MDelete | MSetProperties
                  | MIndexProperty | MExecutePlugin.
Definition arrive_request (m : method) (b : bytes) : option request :=
  match m with
  | MPing => option_map (fun _ => RqPing) (arrive dec_empty tt b)
  | MSync => option_map (fun _ => RqSync) (arrive dec_empty tt b)
  | MCreateVertex => option_map RqCreateVertex (arrive dec_vertex no_vertex b)
  | MCreateVertexFromType => option_map RqCreateVertexFromType (arrive dec_ident (PIdent []) b)
  | MCreateEdge => option_map RqCreateEdge (arrive dec_edge no_edge b)
  | MGet => option_map RqGet (arrive dec_query PQNone b)
  | MDelete => option_map RqDelete (arrive dec_query PQNone b)
  | MSetProperties => option_map RqSetProperties (arrive dec_set_req (PSetReq None None None) b)
  | MIndexProperty => option_map RqIndexProperty (arrive dec_index_req (PIndexReq None) b)
  | MExecutePlugin => option_map (fun r => RqExecutePlugin (fst r) (snd r)) (arrive dec_plugin_req ([], None) b)
  end.
(** The items of a bulk stream: one that cannot be received is an error of the
    stream. *)
Definition arrive_item (b : bytes) : srv pbulk :=
  match arrive dec_bulk PBNone b with Some it => SOk it | None => SErr STransport end.

(** The method and the bytes of a request; of a bulk stream, the bytes of each
    item, or the error it broke with. *)
Inductive wired := WUnary (m : method) (b : bytes) | WStream (l : list (srv bytes)).
Definition encode_request (rq : request) : wired :=
  match rq with
  | RqPing => WUnary MPing put_empty
  | RqSync => WUnary MSync put_empty
  | RqCreateVertex v => WUnary MCreateVertex (enc_vertex v)
  | RqCreateVertexFromType t => WUnary MCreateVertexFromType (enc_ident t)
  | RqCreateEdge e => WUnary MCreateEdge (enc_edge e)
  | RqGet q => WUnary MGet (enc_query q)
  | RqDelete q => WUnary MDelete (enc_query q)
  | RqSetProperties r => WUnary MSetProperties (enc_set_req r)
  | RqBulkInsert items => WStream (map (fun x => match x with SOk it => SOk (enc_bulk it) | SErr s => SErr s end) items)
  | RqIndexProperty r => WUnary MIndexProperty (enc_index_req r)
  | RqExecutePlugin name arg => WUnary MExecutePlugin (enc_plugin_req (name, arg))
  end.
Definition decode_request (w : wired) : option request :=
  match w with
  | WUnary m b => arrive_request m b
  | WStream l => Some (RqBulkInsert (map (fun x => match x with SOk b => arrive_item b | SErr s => SErr s end) l))
  end.

(** The bytes of a response; of a streamed one, the bytes of each message, or
    the error it ends with. *)
Inductive replied := WReply (b : bytes) | WReplies (l : list (srv bytes)).
Definition encode_response (r : response) : replied :=
  match r with
  | RsEmpty => WReply put_empty
  | RsCreated b => WReply (enc_created b)
  | RsUuid u => WReply (enc_uuid u)
  | RsStream l => WReplies (map (fun x => match x with SOk v => SOk (enc_out v) | SErr s => SErr s end) l)
  | RsPlugin v => WReply (enc_plugin_res v)
  end.
(** indradb.proto, service [IndraDB]: the response types, by what the client
    called. *)
Inductive reply_kind := KEmpty | KCreated | KUuid | KStream | KPlugin.
Definition kind_of (c : ccall) : reply_kind :=
  match c with
  | CPing | CSync | CDelete _ | CSetProperties _ _ _ | CBulkInsert _ | CIndexProperty _ => KEmpty
  | CCreateVertex _ | CCreateEdge _ => KCreated
  | CCreateVertexFromType _ => KUuid
  | CGet _ => KStream
  | CExecutePlugin _ _ => KPlugin
  end.
(** The response, as the client receives it: it decodes by the kind it
    expects.  The last case does not arise: tonic's unary and streaming calls
    differ on both sides. *)
Definition or_status {A} (o : option A) : srv A := match o with Some a => SOk a | None => SErr STransport end.
Definition decode_response (k : reply_kind) (w : replied) : srv response :=
  match k, w with
  | KEmpty, WReply b => or_status (option_map (fun _ => RsEmpty) (arrive dec_empty tt b))
  | KCreated, WReply b => or_status (option_map RsCreated (arrive dec_created false b))
  | KUuid, WReply b => or_status (option_map RsUuid (arrive dec_uuid (PUuid []) b))
  | KStream, WReplies l =>
    SOk (RsStream (map (fun x => match x with SOk b => or_status (arrive dec_out PONone b) | SErr s => SErr s end) l))
  | KPlugin, WReply b => or_status (option_map RsPlugin (arrive dec_plugin_res None b))
  | _, _ => SErr STransport
  end.
Definition carry_response (c : ccall) (r : srv response) : srv response :=
  match r with SErr s => SErr s | SOk r => decode_response (kind_of c) (encode_response r) end.

Section Wired.
  Variable alnum : N -> bool.
  Variable enc : json -> bytes.
  Variable dec : bytes -> option json.
  Variables St Env : Type.
  Variable step : St -> Env * op -> outcome res * St.

  (** The server, given the bytes of a request. *)
  Definition serve_wire (ps : plugins St) (st : St) (env : Env) (fresh : uuid) (w : wired) : srv response * St :=
    match decode_request w with
    | None => (SErr STransport, st)
    | Some rq => serve alnum enc dec step ps st env fresh rq
    end.
  (** A call of the client, sent as bytes and answered in bytes. *)
  Definition remote_wire (ps : plugins St) (st : St) (env : Env) (fresh : uuid) (c : ccall) : cl answer * St :=
    let (r, st') := serve_wire ps st env fresh (encode_request (send enc c)) in (receive alnum dec c (carry_response c r), st').
End Wired.
