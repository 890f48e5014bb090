(** * Data model: lib/src/models/*.rs (except json.rs). *)
From Verif Require Import Base OMap Json.

Set Implicit Arguments.

(** ** Uuid: 16 bytes, ordered bytewise (uuid crate: [Ord] on [[u8; 16]]). *)
Definition uuid := bsub (fun l : list byte => Nat.eqb (length l) 16).
Definition ub (u : uuid) : list byte := proj1_sig u.
Lemma ub_inj x y : ub x = ub y -> x = y.
Proof. apply bsub_eq. Qed.
#[global] Instance Ord_uuid : Ord uuid := Ord_inj ub ub_inj.
Lemma ub_length u : length (ub u) = 16.
Proof. destruct u as [l H]; cbn. now apply Nat.eqb_eq. Qed.

(** [Uuid::default()]: the nil UUID. *)
Definition nil_uuid : uuid := exist _ (repeat x00 16) eq_refl.

(** ** Identifier (models/identifiers.rs 13-14).

    The values a program can obtain without [unsafe]: valid UTF-8 of at most
    255 bytes.  (The character check of [Identifier::new] is modelled by
    [ident_new] in Util.v; it is not needed by the storage layers.)  Ordered
    by content, as internment's [Intern<String>]. *)
Definition ident_ok (l : list byte) : bool := (length l <=? 255)%nat && utf8_valid l.
(** models/identifiers.rs 13-14 *)
Definition ident := bsub ident_ok.
(** models/identifiers.rs 49-52: [as_str], as bytes. *)
Definition ib (i : ident) : list byte := proj1_sig i.
Lemma ib_inj x y : ib x = ib y -> x = y.
Proof. apply bsub_eq. Qed.
#[global] Instance Ord_ident : Ord ident := Ord_inj ib ib_inj.
Lemma ib_length i : (length (ib i) <= 255)%nat.
Proof.
  destruct i as [l H]; cbn. unfold ident_ok in H. apply andb_true_iff in H as [H _].
  now apply Nat.leb_le in H.
Qed.
Lemma ib_utf8 i : utf8_valid (ib i) = true.
Proof. destruct i as [l H]; cbn. unfold ident_ok in H. now apply andb_true_iff in H as [_ H]. Qed.

(** models/identifiers.rs 55-59: [Identifier::default()], the empty string. *)
Definition empty_ident : ident := exist _ [] eq_refl.

(** ** Vertex (models/vertices.rs 9-16).  [PartialEq] compares ids only
    (42-46); the model never relies on that instance. *)
Record vertex := Vertex { vid : uuid; vt : ident }.

(** ** Edge (models/edges.rs 11-21). *)
Record edge := Edge { eout : uuid; et : ident; ein : uuid }.

(** Derived [Ord]: lexicographic in declaration order (models/edges.rs 11). *)
Definition edge_tup (e : edge) : uuid * (ident * uuid) := (eout e, (et e, ein e)).
Lemma edge_tup_inj x y : edge_tup x = edge_tup y -> x = y.
Proof. destruct x, y; unfold edge_tup; cbn; intros H; inversion H; reflexivity. Qed.
#[global] Instance Ord_edge : Ord edge := Ord_inj edge_tup edge_tup_inj.

(** models/edges.rs 41-43: [reversed]. *)
Definition reversed (e : edge) : edge := Edge (ein e) (et e) (eout e).

(** ** Properties (models/properties.rs). *)
Record nprop := NProp { np_name : ident; np_value : json }.
Record vprops := VProps { vp_vertex : vertex; vp_props : list nprop }.
Record eprops := EProps { ep_edge : edge; ep_props : list nprop }.

(** ** Bulk insert items (models/bulk_insert.rs 7-16). *)
Inductive bulk_item :=
| BVertex (v : vertex)
| BEdge (e : edge)
| BVProp (id : uuid) (name : ident) (value : json)
| BEProp (e : edge) (name : ident) (value : json).

(** ** Queries (models/queries.rs). *)
Inductive direction := Outbound | Inbound.

(** models/queries.rs 66-101.  Limits are [u32]; ranging over all of [N] is a
    harmless generalisation. *)
Inductive query :=
| QAllVertex
| QRangeVertex (limit : N) (t : option ident) (start : option uuid)
| QSpecificVertex (ids : list uuid)
| QVertexWithPropertyPresence (name : ident)
| QVertexWithPropertyValue (name : ident) (value : json)
| QAllEdge
| QSpecificEdge (edges : list edge)
| QEdgeWithPropertyPresence (name : ident)
| QEdgeWithPropertyValue (name : ident) (value : json)
| QPipe (inner : query) (dir : direction) (limit : N) (t : option ident)
| QPipeProperty (inner : query) (name : option ident)
| QPipeWithPropertyPresence (inner : query) (name : ident) (exists_ : bool)
| QPipeWithPropertyValue (inner : query) (name : ident) (value : json) (equal : bool)
| QInclude (inner : query)
| QCount (inner : query).

(** models/queries.rs 717-728. *)
Inductive outv :=
| Vertices (l : list vertex)
| Edges (l : list edge)
| Count (n : N)
| VertexProperties (l : list vprops)
| EdgeProperties (l : list eprops).

(** ** Builders *)

(** The kind of a [QueryOutputValue] returned by [output_type]. *)
Inductive okind := KVertices | KEdges | KCount | KVProps | KEProps.

(** models/queries.rs 130-152: [output_type]. *)
Fixpoint output_type (q : query) : option okind :=
  match q with
  | QAllVertex | QRangeVertex _ _ _ | QSpecificVertex _
  | QVertexWithPropertyPresence _ | QVertexWithPropertyValue _ _ => Some KVertices
  | QAllEdge | QSpecificEdge _ | QEdgeWithPropertyPresence _ | QEdgeWithPropertyValue _ _ => Some KEdges
  | QCount _ => Some KCount
  | QPipe q _ _ _ => output_type q
  | QPipeProperty q _ =>
    match output_type q with
    | Some KVertices => Some KVProps
    | Some KEdges => Some KEProps
    | _ => None
    end
  | QPipeWithPropertyPresence q _ _ => output_type q
  | QPipeWithPropertyValue q _ _ _ => output_type q
  | QInclude q => output_type q
  end.

(** models/queries.rs 107-125: [output_len], the capacity of the result vector. *)
Fixpoint output_len (q : query) : nat :=
  match q with
  | QAllVertex | QRangeVertex _ _ _ | QSpecificVertex _ | QVertexWithPropertyPresence _ | QVertexWithPropertyValue _ _
  | QAllEdge | QSpecificEdge _ | QEdgeWithPropertyPresence _ | QEdgeWithPropertyValue _ _ | QCount _ => 1
  | QPipe i _ _ _ | QPipeProperty i _ | QPipeWithPropertyPresence i _ _ | QPipeWithPropertyValue i _ _ _ => output_len i
  | QInclude i => 1 + output_len i
  end.

(** [u32::MAX], the default limit (models/queries.rs 265-271, 496-508). *)
Definition u32_max : N := (2 ^ 32 - 1)%N.

(** models/queries.rs 498-499, 555-556, 595-597, 636-638: the kinds a pipe accepts. *)
Definition elem_kind (k : option okind) : bool :=
  match k with Some KVertices | Some KEdges => true | _ => false end.
(** models/queries.rs 704-710: the kinds a count accepts. *)
Definition countable_kind (k : option okind) : bool :=
  match k with Some KVertices | Some KEdges | Some KVProps | Some KEProps => true | _ => false end.

(** models/queries.rs 496-508: [PipeQuery::new] ([None] = [Err(InnerQuery)]). *)
Definition pipe_new (inner : query) (d : direction) : option query :=
  if elem_kind (output_type inner) then Some (QPipe inner d u32_max None) else None.
(** models/queries.rs 554-560: [PipePropertyQuery::new]. *)
Definition pipe_property_new (inner : query) : option query :=
  if elem_kind (output_type inner) then Some (QPipeProperty inner None) else None.
(** models/queries.rs 594-604: [PipeWithPropertyPresenceQuery::new]. *)
Definition pipe_presence_new (inner : query) (name : ident) (ex : bool) : option query :=
  if elem_kind (output_type inner) then Some (QPipeWithPropertyPresence inner name ex) else None.
(** models/queries.rs 630-646: [PipeWithPropertyValueQuery::new]. *)
Definition pipe_value_new (inner : query) (name : ident) (v : json) (eq : bool) : option query :=
  if elem_kind (output_type inner) then Some (QPipeWithPropertyValue inner name v eq) else None.
(** models/queries.rs 677-679: [IncludeQuery::new] accepts any query. *)
Definition include_new (inner : query) : query := QInclude inner.
(** models/queries.rs 703-712: [CountQuery::new]. *)
Definition count_new (inner : query) : option query :=
  if countable_kind (output_type inner) then Some (QCount inner) else None.

(** The queries obtainable with the builder functions, including the setters
    [limit], [t] (models/queries.rs 514-534), [start_id] (301) and [name] (566). *)
Inductive built : query -> Prop :=
| built_all_vertex : built QAllVertex
| built_range l t s : built (QRangeVertex l t s)
| built_specific_vertex ids : built (QSpecificVertex ids)
| built_vpresence n : built (QVertexWithPropertyPresence n)
| built_vvalue n v : built (QVertexWithPropertyValue n v)
| built_all_edge : built QAllEdge
| built_specific_edge es : built (QSpecificEdge es)
| built_epresence n : built (QEdgeWithPropertyPresence n)
| built_evalue n v : built (QEdgeWithPropertyValue n v)
| built_pipe q d q' : built q -> pipe_new q d = Some q' -> built q'
| built_pipe_limit q d l t l' : built (QPipe q d l t) -> built (QPipe q d l' t)
| built_pipe_t q d l t t' : built (QPipe q d l t) -> built (QPipe q d l (Some t'))
| built_pipe_property q q' : built q -> pipe_property_new q = Some q' -> built q'
| built_pipe_property_name q n n' : built (QPipeProperty q n) -> built (QPipeProperty q (Some n'))
| built_presence q n b q' : built q -> pipe_presence_new q n b = Some q' -> built q'
| built_value q n v b q' : built q -> pipe_value_new q n v b = Some q' -> built q'
| built_include q : built q -> built (include_new q)
| built_count q q' : built q -> count_new q = Some q' -> built q'.
