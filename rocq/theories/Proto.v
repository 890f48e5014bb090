(** * Protobuf messages and conversions: proto/indradb.proto,
    proto/src/converters.rs.

    Messages are modelled as the structs prost generates: message-typed fields
    are options, [oneof] is an option of a variant, repeated fields are lists,
    enums are integers, [string] and [bytes] are byte lists.  The wire encoding
    (prost) is in Wire.v. *)
From Coq Require Import String.
From Verif Require Import Base OMap Json Types Util.

Set Implicit Arguments.
Local Open Scope list_scope.
Local Notation bytes := (list byte).

(** ** Messages (proto/indradb.proto) *)

(** indradb.proto: [Uuid], [Identifier], [Json]. *)
Record puuid := PUuid { pu_value : bytes }.
Record pident := PIdent { pi_value : bytes }.
Record pjson := PJson { pj_value : bytes }.
(** [Edge], [Vertex]. *)
Record pedge := PEdge { pe_outbound : option puuid; pe_t : option pident; pe_inbound : option puuid }.
Record pvertex := PVertex { pv_id : option puuid; pv_t : option pident }.

(** [Query] and the query messages.  The message [Query] has one field, the
    [oneof]; [PQNone] is the message in which it is not set.  Directions are
    the [i32] prost stores. *)
Inductive pquery :=
| PQNone
| PQAllVertex
| PQRangeVertex (limit : N) (t : option pident) (start : option puuid)
| PQSpecificVertex (ids : list puuid)
| PQVertexWithPropertyPresence (name : option pident)
| PQVertexWithPropertyValue (name : option pident) (value : option pjson)
| PQAllEdge
| PQSpecificEdge (edges : list pedge)
| PQEdgeWithPropertyPresence (name : option pident)
| PQEdgeWithPropertyValue (name : option pident) (value : option pjson)
| PQPipe (inner : option pquery) (dir : Z) (limit : N) (t : option pident)
| PQPipeProperty (inner : option pquery) (name : option pident)
| PQPipeWithPropertyPresence (inner : option pquery) (name : option pident) (exists_ : bool)
| PQPipeWithPropertyValue (inner : option pquery) (name : option pident) (value : option pjson) (equal : bool)
| PQInclude (inner : option pquery)
| PQCount (inner : option pquery).

(** [NamedProperty], [VertexProperty], [VertexProperties], [EdgeProperty],
    [EdgeProperties]. *)
Record pnprop := PNProp { pn_name : option pident; pn_value : option pjson }.
Record pvprop := PVProp { pvp_id : option puuid; pvp_value : option pjson }.
Record pvprops := PVProps { pvs_vertex : option pvertex; pvs_props : list pnprop }.
Record peprop := PEProp { pep_edge : option pedge; pep_value : option pjson }.
Record peprops := PEProps { pes_edge : option pedge; pes_props : list pnprop }.

(** [QueryOutputValue]. *)
Inductive pout :=
| PONone
| POVertices (l : list pvertex)
| POEdges (l : list pedge)
| POCount (n : N)
| POVertexProperties (l : list pvprops)
| POEdgeProperties (l : list peprops).

(** [BulkInsertItem]. *)
Inductive pbulk :=
| PBNone
| PBVertex (v : pvertex)
| PBEdge (e : pedge)
| PBVertexProperty (id : option puuid) (name : option pident) (value : option pjson)
| PBEdgeProperty (e : option pedge) (name : option pident) (value : option pjson).

(** [IndexPropertyRequest], [SetPropertiesRequest]. *)
Record pindex_req := PIndexReq { pir_name : option pident }.
Record pset_req := PSetReq { psr_q : option pquery; psr_name : option pident; psr_value : option pjson }.

(** ** Fallible conversions *)

(** converters.rs 14-21: [ConversionError]. *)
Inductive cerr :=
| CEJson
| CEUuid
| CEValidation (e : verr)
| CENoneField (name : string).

(** [Result<_, ConversionError>] (proto/src/converters.rs 14-20). *)
Inductive cres (A : Type) := COk (a : A) | CErr (e : cerr).
Arguments COk {A}. Arguments CErr {A}.

(** The operator [?]. *)
Definition cbind {A B} (x : cres A) (f : A -> cres B) : cres B :=
  match x with COk a => f a | CErr e => CErr e end.
Notation "'let!' x ':=' e 'in' k" := (cbind e (fun x => k))
  (at level 200, x pattern, e at level 100, k at level 200).

(** [iter.map(try_into).collect::<Result<Vec<_>, _>>()]. *)
Fixpoint ccollect {A B} (f : A -> cres B) (l : list A) : cres (list B) :=
  match l with
  | [] => COk []
  | x :: r => let! a := f x in let! rest := ccollect f r in COk (a :: rest)
  end.

(** [opt.map(try_into).transpose()?]. *)
Definition coption {A B} (f : A -> cres B) (x : option A) : cres (option B) :=
  match x with
  | None => COk None
  | Some a => let! b := f a in COk (Some b)
  end.

(** converters.rs 64-68: [required_field]. *)
Definition required {A} (name : string) (x : option A) : cres A :=
  match x with Some a => COk a | None => CErr (CENoneField name) end.

Section Convert.
  (** [char::is_alphanumeric] and the JSON text codec ([Value::to_string],
      [serde_json::from_str]). *)
  Variable alnum : N -> bool.
  Variable enc : json -> bytes.
  Variable dec : bytes -> option json.

  (** converters.rs 70-76. *)
  Definition to_uuid (u : uuid) : puuid := PUuid (ub u).
  (** converters.rs 78-84: [Uuid::from_slice]. *)
  Definition of_uuid (u : puuid) : cres uuid :=
    match mk_uuid (pu_value u) with Some x => COk x | None => CErr CEUuid end.

  (** converters.rs 86-90. *)
  Definition to_ident (i : ident) : pident := PIdent (ib i).
  (** converters.rs 92-98: [Identifier::new]. *)
  Definition of_ident (i : pident) : cres ident :=
    match ident_new alnum (pi_value i) with VOk x => COk x | VErr _ e => CErr (CEValidation e) end.

  (** converters.rs 100-106. *)
  Definition to_json (v : json) : pjson := PJson (enc v).
  (** converters.rs 108-114. *)
  Definition of_json (v : pjson) : cres json :=
    match dec (pj_value v) with Some x => COk x | None => CErr CEJson end.

  (** converters.rs 116-124. *)
  Definition to_edge (e : edge) : pedge :=
    PEdge (Some (to_uuid (eout e))) (Some (to_ident (et e))) (Some (to_uuid (ein e))).
  (** converters.rs 126-136. *)
  Definition of_edge (e : pedge) : cres edge :=
    let! o := required "outbound_id" (pe_outbound e) in let! o := of_uuid o in
    let! t := required "t" (pe_t e) in let! t := of_ident t in
    let! i := required "inbound_id" (pe_inbound e) in let! i := of_uuid i in
    COk (Edge o t i).

  (** converters.rs 138-145. *)
  Definition to_vertex (v : vertex) : pvertex := PVertex (Some (to_uuid (vid v))) (Some (to_ident (vt v))).
  (** converters.rs 147-156. *)
  Definition of_vertex (v : pvertex) : cres vertex :=
    let! i := required "id" (pv_id v) in let! i := of_uuid i in
    let! t := required "t" (pv_t v) in let! t := of_ident t in
    COk (Vertex i t).

  (** converters.rs 423-430, and prost's [set_direction]. *)
  Definition to_direction (d : direction) : Z := match d with Outbound => 0 | Inbound => 1 end%Z.
  (** converters.rs 432-439, and prost's [direction()]: unknown values read as
      the default, [Outbound]. *)
  Definition of_direction (d : Z) : direction := if Z.eqb d 1 then Inbound else Outbound.

  (** converters.rs 158-249. *)
  Fixpoint to_query (q : query) : pquery :=
    match q with
    | QAllVertex => PQAllVertex
    | QRangeVertex limit t start => PQRangeVertex limit (option_map to_ident t) (option_map to_uuid start)
    | QSpecificVertex ids => PQSpecificVertex (map to_uuid ids)
    | QVertexWithPropertyPresence n => PQVertexWithPropertyPresence (Some (to_ident n))
    | QVertexWithPropertyValue n v => PQVertexWithPropertyValue (Some (to_ident n)) (Some (to_json v))
    | QAllEdge => PQAllEdge
    | QSpecificEdge es => PQSpecificEdge (map to_edge es)
    | QEdgeWithPropertyPresence n => PQEdgeWithPropertyPresence (Some (to_ident n))
    | QEdgeWithPropertyValue n v => PQEdgeWithPropertyValue (Some (to_ident n)) (Some (to_json v))
    | QPipe i d limit t => PQPipe (Some (to_query i)) (to_direction d) limit (option_map to_ident t)
    | QPipeProperty i n => PQPipeProperty (Some (to_query i)) (option_map to_ident n)
    | QPipeWithPropertyPresence i n b => PQPipeWithPropertyPresence (Some (to_query i)) (Some (to_ident n)) b
    | QPipeWithPropertyValue i n v b =>
      PQPipeWithPropertyValue (Some (to_query i)) (Some (to_ident n)) (Some (to_json v)) b
    | QInclude i => PQInclude (Some (to_query i))
    | QCount i => PQCount (Some (to_query i))
    end.

  (** converters.rs 251-357. *)
  Fixpoint of_query (q : pquery) : cres query :=
    match q with
    | PQNone => CErr (CENoneField "query")
    | PQAllVertex => COk QAllVertex
    | PQRangeVertex limit t start =>
      let! t := coption of_ident t in let! start := coption of_uuid start in
      COk (QRangeVertex limit t start)
    | PQSpecificVertex ids => let! ids := ccollect of_uuid ids in COk (QSpecificVertex ids)
    | PQVertexWithPropertyPresence n =>
      let! n := required "name" n in let! n := of_ident n in COk (QVertexWithPropertyPresence n)
    | PQVertexWithPropertyValue n v =>
      let! n := required "name" n in let! v := required "value" v in
      let! n := of_ident n in let! v := of_json v in COk (QVertexWithPropertyValue n v)
    | PQAllEdge => COk QAllEdge
    | PQSpecificEdge es => let! es := ccollect of_edge es in COk (QSpecificEdge es)
    | PQEdgeWithPropertyPresence n =>
      let! n := required "name" n in let! n := of_ident n in COk (QEdgeWithPropertyPresence n)
    | PQEdgeWithPropertyValue n v =>
      let! n := required "name" n in let! v := required "value" v in
      let! n := of_ident n in let! v := of_json v in COk (QEdgeWithPropertyValue n v)
    | PQPipe i d limit t =>
      let! t := coption of_ident t in
      match i with
      | None => CErr (CENoneField "inner")
      | Some i => let! i := of_query i in COk (QPipe i (of_direction d) limit t)
      end
    | PQPipeProperty i n =>
      match i with
      | None => CErr (CENoneField "inner")
      | Some i => let! n := coption of_ident n in let! i := of_query i in COk (QPipeProperty i n)
      end
    | PQPipeWithPropertyPresence i n b =>
      match i with
      | None => CErr (CENoneField "inner")
      | Some i =>
        let! n := required "name" n in
        let! i := of_query i in let! n := of_ident n in COk (QPipeWithPropertyPresence i n b)
      end
    | PQPipeWithPropertyValue i n v b =>
      match i with
      | None => CErr (CENoneField "inner")
      | Some i =>
        let! n := required "name" n in let! v := required "value" v in
        let! i := of_query i in let! n := of_ident n in let! v := of_json v in
        COk (QPipeWithPropertyValue i n v b)
      end
    | PQInclude i =>
      match i with
      | None => CErr (CENoneField "inner")
      | Some i => let! i := of_query i in COk (QInclude i)
      end
    | PQCount i =>
      match i with
      | None => CErr (CENoneField "inner")
      | Some i => let! i := of_query i in COk (QCount i)
      end
    end.

  (** converters.rs 441-448. *)
  Definition to_nprop (p : nprop) : pnprop := PNProp (Some (to_ident (np_name p))) (Some (to_json (np_value p))).
  (** converters.rs 450-459. *)
  Definition of_nprop (p : pnprop) : cres nprop :=
    let! n := required "name" (pn_name p) in let! n := of_ident n in
    let! v := required "value" (pn_value p) in let! v := of_json v in
    COk (NProp n v).

  (** converters.rs 461-468, 470-479: [VertexProperty] as a pair. *)
  Definition to_vprop (p : uuid * json) : pvprop := PVProp (Some (to_uuid (fst p))) (Some (to_json (snd p))).
  Definition of_vprop (p : pvprop) : cres (uuid * json) :=
    let! i := required "id" (pvp_id p) in let! i := of_uuid i in
    let! v := required "value" (pvp_value p) in let! v := of_json v in
    COk (i, v).

  (** converters.rs 481-488. *)
  Definition to_vprops (p : vprops) : pvprops := PVProps (Some (to_vertex (vp_vertex p))) (map to_nprop (vp_props p)).
  (** converters.rs 490-501.  The properties are converted first but their
      error is reported after the vertex's. *)
  Definition of_vprops (p : pvprops) : cres vprops :=
    let props := ccollect of_nprop (pvs_props p) in
    let! v := required "vertex" (pvs_vertex p) in let! v := of_vertex v in
    let! props := props in
    COk (VProps v props).

  (** converters.rs 503-510, 512-521: [EdgeProperty] as a pair. *)
  Definition to_eprop (p : edge * json) : peprop := PEProp (Some (to_edge (fst p))) (Some (to_json (snd p))).
  Definition of_eprop (p : peprop) : cres (edge * json) :=
    let! e := required "edge" (pep_edge p) in let! e := of_edge e in
    let! v := required "value" (pep_value p) in let! v := of_json v in
    COk (e, v).

  (** converters.rs 523-530. *)
  Definition to_eprops (p : eprops) : peprops := PEProps (Some (to_edge (ep_edge p))) (map to_nprop (ep_props p)).
  (** converters.rs 532-543. *)
  Definition of_eprops (p : peprops) : cres eprops :=
    let props := ccollect of_nprop (pes_props p) in
    let! e := required "edge" (pes_edge p) in let! e := of_edge e in
    let! props := props in
    COk (EProps e props).

  (** converters.rs 359-385. *)
  Definition to_out (v : outv) : pout :=
    match v with
    | Vertices l => POVertices (map to_vertex l)
    | Edges l => POEdges (map to_edge l)
    | Count n => POCount n
    | VertexProperties l => POVertexProperties (map to_vprops l)
    | EdgeProperties l => POEdgeProperties (map to_eprops l)
    end.
  (** converters.rs 387-421. *)
  Definition of_out (v : pout) : cres outv :=
    match v with
    | PONone => CErr (CENoneField "value")
    | POVertices l => let! l := ccollect of_vertex l in COk (Vertices l)
    | POEdges l => let! l := ccollect of_edge l in COk (Edges l)
    | POCount n => COk (Count n)
    | POVertexProperties l => let! l := ccollect of_vprops l in COk (VertexProperties l)
    | POEdgeProperties l => let! l := ccollect of_eprops l in COk (EdgeProperties l)
    end.

  (** converters.rs 545-568. *)
  Definition to_bulk (it : bulk_item) : pbulk :=
    match it with
    | BVertex v => PBVertex (to_vertex v)
    | BEdge e => PBEdge (to_edge e)
    | BVProp id n v => PBVertexProperty (Some (to_uuid id)) (Some (to_ident n)) (Some (to_json v))
    | BEProp e n v => PBEdgeProperty (Some (to_edge e)) (Some (to_ident n)) (Some (to_json v))
    end.
  (** converters.rs 570-589. *)
  Definition of_bulk (it : pbulk) : cres bulk_item :=
    match it with
    | PBNone => CErr (CENoneField "item")
    | PBVertex v => let! v := of_vertex v in COk (BVertex v)
    | PBEdge e => let! e := of_edge e in COk (BEdge e)
    | PBVertexProperty id n v =>
      let! id := required "id" id in let! id := of_uuid id in
      let! n := required "name" n in let! n := of_ident n in
      let! v := required "value" v in let! v := of_json v in
      COk (BVProp id n v)
    | PBEdgeProperty e n v =>
      let! e := required "edge" e in let! e := of_edge e in
      let! n := required "name" n in let! n := of_ident n in
      let! v := required "value" v in let! v := of_json v in
      COk (BEProp e n v)
    end.

  (** client.rs 231-236 builds the message; converters.rs 591-598 reads it. *)
  Definition to_index_req (n : ident) : pindex_req := PIndexReq (Some (to_ident n)).
  Definition of_index_req (r : pindex_req) : cres ident :=
    let! n := required "name" (pir_name r) in of_ident n.

  (** converters.rs 611-619. *)
  Definition to_set_req (x : query * ident * json) : pset_req :=
    let '(q, n, v) := x in PSetReq (Some (to_query q)) (Some (to_ident n)) (Some (to_json v)).
  (** converters.rs 600-609. *)
  Definition of_set_req (r : pset_req) : cres (query * ident * json) :=
    let! q := required "q" (psr_q r) in let! q := of_query q in
    let! n := required "name" (psr_name r) in let! n := of_ident n in
    let! v := required "value" (psr_value r) in let! v := of_json v in
    COk (q, n, v).
End Convert.
