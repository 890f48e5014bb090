(** * The published interface: proto/indradb.proto as data, and what a
    protobuf message of it is, whoever serialized it.

    Clients in other languages are generated from the .proto file.  The
    serialization rules are those of the protobuf encoding guide for proto3,
    written as relations and not as a program: fields may come in any order,
    integers may be padded, a field with its default value may be written or
    left out, and fields the schema does not have may be added.  Left out:
    groups (not in proto3) and messages in which a non-repeated field occurs
    more than once (no serializer writes them). *)
From Coq Require Import String.
From Verif Require Import Base OMap Json Types Proto Wire.

Set Implicit Arguments.
Local Open Scope string_scope.
Local Open Scope list_scope.
Local Notation bytes := (list byte).

(** ** The schema *)
Inductive ptype := TBytes | TString | TU32 | TU64 | TBool | TEnum | TMsg (m : string).
Inductive pkind := Plain | Repeated | OneOf.
Record pfield := F { f_kind : pkind; f_type : ptype; f_name : string; f_num : N }.

(** proto/indradb.proto 9-329, message by message, without the two no call uses
    ([VertexProperty], [EdgeProperty]). *)
Definition message_types : list (string * list pfield) := [
  ("google.protobuf.Empty", []);
  ("Uuid", [F Plain TBytes "value" 1]);
  ("Identifier", [F Plain TString "value" 1]);
  ("Json", [F Plain TString "value" 1]);
  ("Edge", [F Plain (TMsg "Uuid") "outbound_id" 1; F Plain (TMsg "Identifier") "t" 2; F Plain (TMsg "Uuid") "inbound_id" 3]);
  ("Vertex", [F Plain (TMsg "Uuid") "id" 1; F Plain (TMsg "Identifier") "t" 2]);
  ("Query", [
    F OneOf (TMsg "google.protobuf.Empty") "all_vertex" 1;
    F OneOf (TMsg "RangeVertexQuery") "range_vertex" 2;
    F OneOf (TMsg "SpecificVertexQuery") "specific_vertex" 3;
    F OneOf (TMsg "VertexWithPropertyPresenceQuery") "vertex_with_property_presence" 4;
    F OneOf (TMsg "VertexWithPropertyValueQuery") "vertex_with_property_value" 5;
    F OneOf (TMsg "google.protobuf.Empty") "all_edge" 6;
    F OneOf (TMsg "SpecificEdgeQuery") "specific_edge" 7;
    F OneOf (TMsg "EdgeWithPropertyPresenceQuery") "edge_with_property_presence" 8;
    F OneOf (TMsg "EdgeWithPropertyValueQuery") "edge_with_property_value" 9;
    F OneOf (TMsg "PipeQuery") "pipe" 10;
    F OneOf (TMsg "PipePropertyQuery") "pipe_property" 11;
    F OneOf (TMsg "PipeWithPropertyPresenceQuery") "pipe_with_property_presence" 12;
    F OneOf (TMsg "PipeWithPropertyValueQuery") "pipe_with_property_value" 13;
    F OneOf (TMsg "IncludeQuery") "include" 14;
    F OneOf (TMsg "CountQuery") "count" 15]);
  ("RangeVertexQuery", [F Plain TU32 "limit" 1; F Plain (TMsg "Identifier") "t" 2; F Plain (TMsg "Uuid") "start_id" 3]);
  ("SpecificVertexQuery", [F Repeated (TMsg "Uuid") "ids" 1]);
  ("VertexWithPropertyPresenceQuery", [F Plain (TMsg "Identifier") "name" 1]);
  ("VertexWithPropertyValueQuery", [F Plain (TMsg "Identifier") "name" 1; F Plain (TMsg "Json") "value" 2]);
  ("SpecificEdgeQuery", [F Repeated (TMsg "Edge") "edges" 1]);
  ("EdgeWithPropertyPresenceQuery", [F Plain (TMsg "Identifier") "name" 1]);
  ("EdgeWithPropertyValueQuery", [F Plain (TMsg "Identifier") "name" 1; F Plain (TMsg "Json") "value" 2]);
  ("PipeQuery", [F Plain (TMsg "Query") "inner" 1; F Plain TEnum "direction" 2; F Plain TU32 "limit" 3; F Plain (TMsg "Identifier") "t" 4]);
  ("PipePropertyQuery", [F Plain (TMsg "Query") "inner" 1; F Plain (TMsg "Identifier") "name" 2]);
  ("PipeWithPropertyPresenceQuery", [F Plain (TMsg "Query") "inner" 1; F Plain (TMsg "Identifier") "name" 2; F Plain TBool "exists" 3]);
  ("PipeWithPropertyValueQuery", [F Plain (TMsg "Query") "inner" 1; F Plain (TMsg "Identifier") "name" 2; F Plain (TMsg "Json") "value" 3;
                                  F Plain TBool "equal" 4]);
  ("IncludeQuery", [F Plain (TMsg "Query") "inner" 1]);
  ("CountQuery", [F Plain (TMsg "Query") "inner" 1]);
  ("QueryOutputValue", [
    F OneOf (TMsg "QueryOutputVertices") "vertices" 1;
    F OneOf (TMsg "QueryOutputEdges") "edges" 2;
    F OneOf TU64 "count" 3;
    F OneOf (TMsg "QueryOutputVertexProperties") "vertex_properties" 4;
    F OneOf (TMsg "QueryOutputEdgeProperties") "edge_properties" 5]);
  ("QueryOutputVertices", [F Repeated (TMsg "Vertex") "vertices" 1]);
  ("QueryOutputEdges", [F Repeated (TMsg "Edge") "edges" 1]);
  ("QueryOutputVertexProperties", [F Repeated (TMsg "VertexProperties") "vertex_properties" 1]);
  ("QueryOutputEdgeProperties", [F Repeated (TMsg "EdgeProperties") "edge_properties" 1]);
  ("NamedProperty", [F Plain (TMsg "Identifier") "name" 3; F Plain (TMsg "Json") "value" 2]);
  ("VertexProperties", [F Plain (TMsg "Vertex") "vertex" 1; F Repeated (TMsg "NamedProperty") "props" 2]);
  ("EdgeProperties", [F Plain (TMsg "Edge") "edge" 1; F Repeated (TMsg "NamedProperty") "props" 2]);
  ("BulkInsertItem", [
    F OneOf (TMsg "Vertex") "vertex" 1;
    F OneOf (TMsg "Edge") "edge" 2;
    F OneOf (TMsg "VertexPropertyBulkInsertItem") "vertex_property" 3;
    F OneOf (TMsg "EdgePropertyBulkInsertItem") "edge_property" 4]);
  ("VertexPropertyBulkInsertItem", [F Plain (TMsg "Uuid") "id" 1; F Plain (TMsg "Identifier") "name" 4; F Plain (TMsg "Json") "value" 3]);
  ("EdgePropertyBulkInsertItem", [F Plain (TMsg "Edge") "edge" 1; F Plain (TMsg "Identifier") "name" 4; F Plain (TMsg "Json") "value" 3]);
  ("IndexPropertyRequest", [F Plain (TMsg "Identifier") "name" 1]);
  ("SetPropertiesRequest", [F Plain (TMsg "Query") "q" 1; F Plain (TMsg "Identifier") "name" 2; F Plain (TMsg "Json") "value" 3]);
  ("CreateResponse", [F Plain TBool "created" 1]);
  ("ExecutePluginRequest", [F Plain TString "name" 1; F Plain (TMsg "Json") "arg" 2]);
  ("ExecutePluginResponse", [F Plain (TMsg "Json") "value" 1])].
Definition schema (m : string) : list pfield :=
  match find (fun x => fst x =? m) message_types with Some x => snd x | None => [] end.

(** ** Messages by field names

    A message is its fields by name; a plain field that has its default value
    (zero, false, empty) is left out. *)
Inductive dval := DNum (n : N) | DInt (z : Z) | DText (b : bytes) | DMsg (l : list (string * dval)).
Definition vals (n : string) (l : list (string * dval)) : list dval := map snd (filter (fun x => fst x =? n) l).
Definition default (v : dval) : bool :=
  match v with DNum 0 | DInt 0 | DText [] => true | _ => false end.
(** How many messages are inside one another. *)
Fixpoint depth (v : dval) : nat :=
  match v with DMsg l => S (list_max (map (fun x => depth (snd x)) l)) | _ => 0 end.

(** ** Serializations *)

(** Base 128, low digits first, the last byte below 128; at most ten bytes. *)
Inductive digits : N -> bytes -> Prop :=
| d_last x : (bN x < 128)%N -> digits (bN x) [x]
| d_more x n b : (128 <= bN x)%N -> digits n b -> digits (bN x - 128 + 128 * n)%N (x :: b).
Definition is_varint (n : N) (b : bytes) : Prop := digits n b /\ (length b <= 10)%nat /\ (n < 2 ^ 64)%N.

(** One field: the key (number and wire type), then the payload. *)
Inductive is_field : N -> wval -> bytes -> Prop :=
| f_varint t n k b : (1 <= t < 2 ^ 29)%N -> is_varint (8 * t) k -> is_varint n b -> is_field t (WVar n) (k ++ b)
| f_bytes t x k b : (1 <= t < 2 ^ 29)%N -> is_varint (8 * t + 2) k -> is_varint (lenN x) b -> is_field t (WLen x) (k ++ b ++ x)
| f_64bit t x k : (1 <= t < 2 ^ 29)%N -> is_varint (8 * t + 1) k -> length x = 8 -> is_field t WOther (k ++ x)
| f_32bit t x k : (1 <= t < 2 ^ 29)%N -> is_varint (8 * t + 5) k -> length x = 4 -> is_field t WOther (k ++ x).

(** The fields that occur have the contents [l] of the message. *)
Definition content (m : string) (occ l : list (string * dval)) : Prop :=
  (forall f, In f (schema m) ->
    match f_kind f with
    | Plain => length (vals (f_name f) occ) <= 1 /\ filter (fun v => negb (default v)) (vals (f_name f) occ) = vals (f_name f) l
    | OneOf => vals (f_name f) occ = vals (f_name f) l
    | Repeated => vals (f_name f) occ = vals (f_name f) l
    end) /\
  ((exists f, In f (schema m) /\ f_kind f = OneOf) -> length occ <= 1).

(** A payload for a value of a type; a message for the fields that occur in it. *)
Inductive says : ptype -> wval -> dval -> Prop :=
| s_bytes b : says TBytes (WLen b) (DText b)
| s_string b : utf8_valid b = true -> says TString (WLen b) (DText b)
| s_u32 n : (n < 2 ^ 32)%N -> says TU32 (WVar n) (DNum n)
| s_u64 n : says TU64 (WVar n) (DNum n)
| s_bool n : (n < 2)%N -> says TBool (WVar n) (DNum n)
| s_enum z : (- 2 ^ 31 <= z < 2 ^ 31)%Z -> says TEnum (WVar (Z.to_N (z mod 2 ^ 64))) (DInt z)
| s_msg m b occ l : occurs m b occ -> content m occ l -> says (TMsg m) (WLen b) (DMsg l)
with occurs : string -> bytes -> list (string * dval) -> Prop :=
| o_nil m : occurs m [] []
| o_known m f w b v r occ : In f (schema m) -> is_field (f_num f) w b -> says (f_type f) w v -> occurs m r occ ->
    occurs m (b ++ r) ((f_name f, v) :: occ)
| o_unknown m t w b r occ : ~ In t (map f_num (schema m)) -> is_field t w b -> occurs m r occ -> occurs m (b ++ r) occ.
Definition serializes (m : string) (b : bytes) (l : list (string * dval)) : Prop :=
  exists occ, occurs m b occ /\ content m occ l.

(** ** The program's messages by field names *)
Definition text (n : string) (b : bytes) : list (string * dval) := match b with [] => [] | _ => [(n, DText b)] end.
Definition number (n : string) (k : N) : list (string * dval) := if (k =? 0)%N then [] else [(n, DNum k)].
Definition enum (n : string) (z : Z) : list (string * dval) := if (z =? 0)%Z then [] else [(n, DInt z)].
Definition flag (n : string) (b : bool) : list (string * dval) := if b then [(n, DNum 1)] else [].
Definition embedded {M} (n : string) (by_name : M -> list (string * dval)) (o : option M) : list (string * dval) :=
  match o with Some m => [(n, DMsg (by_name m))] | None => [] end.
Definition repeated {M} (n : string) (by_name : M -> list (string * dval)) (l : list M) : list (string * dval) :=
  map (fun m => (n, DMsg (by_name m))) l.

Definition uuid_message (u : puuid) := text "value" (pu_value u).
Definition ident_message (i : pident) := text "value" (pi_value i).
Definition json_message (j : pjson) := text "value" (pj_value j).
Definition edge_message (e : pedge) :=
  embedded "outbound_id" uuid_message (pe_outbound e) ++ embedded "t" ident_message (pe_t e) ++ embedded "inbound_id" uuid_message (pe_inbound e).
Definition vertex_message (v : pvertex) := embedded "id" uuid_message (pv_id v) ++ embedded "t" ident_message (pv_t v).
Fixpoint query_message (q : pquery) : list (string * dval) :=
  let inner (o : option pquery) := match o with Some i => [("inner", DMsg (query_message i))] | None => [] end in
  match q with
  | PQNone => []
  | PQAllVertex => [("all_vertex", DMsg [])]
  | PQRangeVertex l t s => [("range_vertex", DMsg (number "limit" l ++ embedded "t" ident_message t ++ embedded "start_id" uuid_message s))]
  | PQSpecificVertex ids => [("specific_vertex", DMsg (repeated "ids" uuid_message ids))]
  | PQVertexWithPropertyPresence n => [("vertex_with_property_presence", DMsg (embedded "name" ident_message n))]
  | PQVertexWithPropertyValue n v => [("vertex_with_property_value", DMsg (embedded "name" ident_message n ++ embedded "value" json_message v))]
  | PQAllEdge => [("all_edge", DMsg [])]
  | PQSpecificEdge es => [("specific_edge", DMsg (repeated "edges" edge_message es))]
  | PQEdgeWithPropertyPresence n => [("edge_with_property_presence", DMsg (embedded "name" ident_message n))]
  | PQEdgeWithPropertyValue n v => [("edge_with_property_value", DMsg (embedded "name" ident_message n ++ embedded "value" json_message v))]
  | PQPipe i dir l t => [("pipe", DMsg (inner i ++ enum "direction" dir ++ number "limit" l ++ embedded "t" ident_message t))]
  | PQPipeProperty i n => [("pipe_property", DMsg (inner i ++ embedded "name" ident_message n))]
  | PQPipeWithPropertyPresence i n e =>
    [("pipe_with_property_presence", DMsg (inner i ++ embedded "name" ident_message n ++ flag "exists" e))]
  | PQPipeWithPropertyValue i n v e =>
    [("pipe_with_property_value", DMsg (inner i ++ embedded "name" ident_message n ++ embedded "value" json_message v ++ flag "equal" e))]
  | PQInclude i => [("include", DMsg (inner i))]
  | PQCount i => [("count", DMsg (inner i))]
  end.
Definition nprop_message (p : pnprop) := embedded "name" ident_message (pn_name p) ++ embedded "value" json_message (pn_value p).
Definition vprops_message (p : pvprops) := embedded "vertex" vertex_message (pvs_vertex p) ++ repeated "props" nprop_message (pvs_props p).
Definition eprops_message (p : peprops) := embedded "edge" edge_message (pes_edge p) ++ repeated "props" nprop_message (pes_props p).
Definition out_message (v : pout) : list (string * dval) :=
  match v with
  | PONone => []
  | POVertices l => [("vertices", DMsg (repeated "vertices" vertex_message l))]
  | POEdges l => [("edges", DMsg (repeated "edges" edge_message l))]
  | POCount n => [("count", DNum n)]
  | POVertexProperties l => [("vertex_properties", DMsg (repeated "vertex_properties" vprops_message l))]
  | POEdgeProperties l => [("edge_properties", DMsg (repeated "edge_properties" eprops_message l))]
  end.
Definition bulk_message (it : pbulk) : list (string * dval) :=
  match it with
  | PBNone => []
  | PBVertex v => [("vertex", DMsg (vertex_message v))]
  | PBEdge e => [("edge", DMsg (edge_message e))]
  | PBVertexProperty i n v =>
    [("vertex_property", DMsg (embedded "id" uuid_message i ++ embedded "name" ident_message n ++ embedded "value" json_message v))]
  | PBEdgeProperty e n v =>
    [("edge_property", DMsg (embedded "edge" edge_message e ++ embedded "name" ident_message n ++ embedded "value" json_message v))]
  end.
Definition index_message (r : pindex_req) := embedded "name" ident_message (pir_name r).
Definition set_message (r : pset_req) :=
  embedded "q" query_message (psr_q r) ++ embedded "name" ident_message (psr_name r) ++ embedded "value" json_message (psr_value r).
Definition created_message (b : bool) := flag "created" b.
Definition plugin_message (r : bytes * option pjson) := text "name" (fst r) ++ embedded "arg" json_message (snd r).
Definition plugin_result_message (r : option pjson) := embedded "value" json_message r.
