(** * The fluent query interface: lib/src/models/queries.rs.

    The builder methods a program writes queries with.  ([new] functions that
    validate their inner query are in Types.v.) *)
From Coq Require Import String.
From Verif Require Import Base OMap Json Types Db Spec.

Set Implicit Arguments.
Local Open Scope list_scope.

(** ** Structures with settings *)

(** models/queries.rs 243-253 *)
Record range_query := RangeQ { rq_limit : N; rq_t : option ident; rq_start : option uuid }.
(** 263-271; [default] (257-261) is the same *)
Definition range_new : range_query := RangeQ u32_max None None.
(** 277-283 *)
Definition range_limit (q : range_query) (limit : N) : range_query := RangeQ limit (rq_t q) (rq_start q).
(** 289-295 *)
Definition range_t (q : range_query) (t : ident) : range_query := RangeQ (rq_limit q) (Some t) (rq_start q).
(** 301-307 *)
Definition range_start (q : range_query) (id : uuid) : range_query := RangeQ (rq_limit q) (rq_t q) (Some id).
(** 7-17: [into] *)
Definition of_range (q : range_query) : query := QRangeVertex (rq_limit q) (rq_t q) (rq_start q).

(** 471-486 *)
Record pipe_query := PipeQ { pq_inner : query; pq_dir : direction; pq_limit : N; pq_t : option ident }.
(** 496-508 *)
Definition pipeq_new (inner : query) (d : direction) : option pipe_query :=
  if elem_kind (output_type inner) then Some (PipeQ inner d u32_max None) else None.
(** 514-521 *)
Definition pipe_set_limit (q : pipe_query) (limit : N) : pipe_query := PipeQ (pq_inner q) (pq_dir q) limit (pq_t q).
(** 527-534 *)
Definition pipe_set_t (q : pipe_query) (t : ident) : pipe_query := PipeQ (pq_inner q) (pq_dir q) (pq_limit q) (Some t).
(** 7-17: [into] *)
Definition of_pipe (q : pipe_query) : query := QPipe (pq_inner q) (pq_dir q) (pq_limit q) (pq_t q).

(** 537-545 *)
Record prop_query := PropQ { ppq_inner : query; ppq_name : option ident }.
(** 554-560 *)
Definition propq_new (inner : query) : option prop_query :=
  if elem_kind (output_type inner) then Some (PropQ inner None) else None.
(** 566-571 *)
Definition prop_set_name (q : prop_query) (n : ident) : prop_query := PropQ (ppq_inner q) (Some n).
(** 7-17: [into] *)
Definition of_prop (q : prop_query) : query := QPipeProperty (ppq_inner q) (ppq_name q).

(** ** Constructors without settings *)

(** 325-327 and 333-335 *)
Definition vertices_new (ids : list uuid) : query := QSpecificVertex ids.
Definition vertices_single (id : uuid) : query := QSpecificVertex [id].
(** 352-354, 374-379 *)
Definition vertex_presence_new (n : ident) : query := QVertexWithPropertyPresence n.
Definition vertex_value_new (n : ident) (x : json) : query := QVertexWithPropertyValue n x.
(** 411-413 and 419-421 *)
Definition edges_new (es : list edge) : query := QSpecificEdge es.
Definition edges_single (e : edge) : query := QSpecificEdge [e].
(** 438-440, 460-465 *)
Definition edge_presence_new (n : ident) : query := QEdgeWithPropertyPresence n.
Definition edge_value_new (n : ident) (x : json) : query := QEdgeWithPropertyValue n x.

(** ** [QueryExt] (156-218) and [CountQueryExt] (220-225) *)

(** 158-160, 163-165 *)
Definition outbound (q : query) : option pipe_query := pipeq_new q Outbound.
Definition inbound (q : query) : option pipe_query := pipeq_new q Inbound.
(** 171-173, 179-181 *)
Definition with_property (q : query) (n : ident) : option query := pipe_presence_new q n true.
Definition without_property (q : query) (n : ident) : option query := pipe_presence_new q n false.
(** 188-194, 201-207 *)
Definition with_property_equal_to (q : query) (n : ident) (x : json) : option query := pipe_value_new q n x true.
Definition with_property_not_equal_to (q : query) (n : ident) (x : json) : option query := pipe_value_new q n x false.
(** 210-212 *)
Definition properties (q : query) : option prop_query := propq_new q.
(** 215-217 *)
Definition include (q : query) : query := include_new q.
(** 222-224 *)
Definition count (q : query) : option query := count_new q.

(** ** [EdgeDirection] as text *)
Definition text_outbound : list byte := String.list_byte_of_string "outbound"%string.
Definition text_inbound : list byte := String.list_byte_of_string "inbound"%string.
(** 46-52 ([None] = [Err(InvalidValue)]) *)
Definition direction_from_str (s : list byte) : option direction :=
  if list_eq_dec Byte.byte_eq_dec s text_outbound then Some Outbound
  else if list_eq_dec Byte.byte_eq_dec s text_inbound then Some Inbound
  else None.
(** 56-61 *)
Definition direction_to_string (d : direction) : list byte :=
  match d with Outbound => text_outbound | Inbound => text_inbound end.

(** ** Programs written with the interface *)

(** Calls of [limit], [t] and [start_id] (models/queries.rs 277-307). *)
Inductive rset := RsLimit (n : N) | RsType (t : ident) | RsStart (id : uuid).
(** Calls of [limit] and [t] (models/queries.rs 514-534). *)
Inductive pset := PsLimit (n : N) | PsType (t : ident).

(** Programs written with the methods of models/queries.rs 154-225, 320-465. *)
Inductive chain :=
| CAllVertices
| CRange (sets : list rset)                      (* RangeVertexQuery::new().limit(..)... *)
| CVertices (ids : list uuid)
| CVertex (id : uuid)
| CVerticesWithProperty (n : ident)
| CVerticesWithValue (n : ident) (x : json)
| CAllEdges
| CEdges (es : list edge)
| CEdge (e : edge)
| CEdgesWithProperty (n : ident)
| CEdgesWithValue (n : ident) (x : json)
| COut (c : chain) (sets : list pset)            (* c.outbound()?.limit(..).t(..) *)
| CIn (c : chain) (sets : list pset)
| CWith (c : chain) (n : ident)
| CWithout (c : chain) (n : ident)
| CEqual (c : chain) (n : ident) (x : json)
| CNotEqual (c : chain) (n : ident) (x : json)
| CInclude (c : chain).

Definition apply_rset (q : range_query) (x : rset) : range_query :=
  match x with RsLimit n => range_limit q n | RsType t => range_t q t | RsStart id => range_start q id end.
Definition apply_pset (q : pipe_query) (x : pset) : pipe_query :=
  match x with PsLimit n => pipe_set_limit q n | PsType t => pipe_set_t q t end.
Definition hop (q : option pipe_query) (sets : list pset) : option query :=
  option_map (fun q => of_pipe (fold_left apply_pset sets q)) q.

(** The query a program builds; [None] when a method returned an error. *)
Fixpoint compile (c : chain) : option query :=
  let after c f := match compile c with Some q => f q | None => None end in
  match c with
  | CAllVertices => Some QAllVertex
  | CRange sets => Some (of_range (fold_left apply_rset sets range_new))
  | CVertices ids => Some (vertices_new ids)
  | CVertex id => Some (vertices_single id)
  | CVerticesWithProperty n => Some (vertex_presence_new n)
  | CVerticesWithValue n x => Some (vertex_value_new n x)
  | CAllEdges => Some QAllEdge
  | CEdges es => Some (edges_new es)
  | CEdge e => Some (edges_single e)
  | CEdgesWithProperty n => Some (edge_presence_new n)
  | CEdgesWithValue n x => Some (edge_value_new n x)
  | COut c sets => after c (fun q => hop (outbound q) sets)
  | CIn c sets => after c (fun q => hop (inbound q) sets)
  | CWith c n => after c (fun q => with_property q n)
  | CWithout c n => after c (fun q => without_property q n)
  | CEqual c n x => after c (fun q => with_property_equal_to q n x)
  | CNotEqual c n x => after c (fun q => with_property_not_equal_to q n x)
  | CInclude c => after c (fun q => Some (include q))
  end.
(** [c.properties()?.name(..)], [c.count()?] and [c.properties()?.name(..).count()?] *)
Definition compile_properties (c : chain) (names : list ident) : option query :=
  match compile c with Some q => option_map (fun q => of_prop (fold_left prop_set_name names q)) (properties q) | None => None end.
Definition compile_count (c : chain) : option query :=
  match compile c with Some q => count q | None => None end.
Definition compile_properties_count (c : chain) (names : list ident) : option query :=
  match compile_properties c names with Some q => count q | None => None end.

(** ** Specification: what the method names say *)

(** The setting in force: the last one of its kind. *)
Definition rset_limit (x : rset) : option N := match x with RsLimit n => Some n | _ => None end.
Definition rset_type (x : rset) : option ident := match x with RsType t => Some t | _ => None end.
Definition rset_start (x : rset) : option uuid := match x with RsStart id => Some id | _ => None end.
Definition pset_limit (x : pset) : option N := match x with PsLimit n => Some n | _ => None end.
Definition pset_type (x : pset) : option ident := match x with PsType t => Some t | _ => None end.
Fixpoint final {A B} (f : A -> option B) (l : list A) : option B :=
  match l with
  | [] => None
  | x :: l => match final f l with Some b => Some b | None => f x end
  end.
Definition final_limit (o : option N) : N := match o with Some n => n | None => 4294967295%N end.

Inductive elem := V (v : vertex) | E (e : edge).
Definition typed (t : option ident) (x : ident) : Prop := forall t', t = Some t' -> x = t'.

(** [selects g like c x]: ignoring limits, [c] asks for [x].  [like stored asked]:
    a stored value counts as equal to the value asked for. *)
Section Selects.
  Variable g : graph.
  Variable like : json -> json -> Prop.
  Definition prop_of (x : elem) (n : ident) : option json :=
    match x with V v => get (vid v, n) (gvp g) | E e => get (e, n) (gep g) end.
  Definition equals (x : elem) (n : ident) (asked : json) : Prop := exists y, prop_of x n = Some y /\ like y asked.
  Fixpoint selects (c : chain) (x : elem) : Prop :=
    match c with
    | CAllVertices => match x with V v => is_vertex g v | E _ => False end
    | CRange sets =>
      match x with
      | V v => is_vertex g v /\ typed (final rset_type sets) (vt v) /\ (forall id, final rset_start sets = Some id -> ~ lt (vid v) id)
      | E _ => False
      end
    | CVertices ids => match x with V v => is_vertex g v /\ In (vid v) ids | E _ => False end
    | CVertex id => match x with V v => is_vertex g v /\ vid v = id | E _ => False end
    | CVerticesWithProperty n => match x with V v => is_vertex g v /\ prop_of x n <> None | E _ => False end
    | CVerticesWithValue n y => match x with V v => is_vertex g v /\ equals x n y | E _ => False end
    | CAllEdges => match x with E e => is_edge g e | V _ => False end
    | CEdges es => match x with E e => is_edge g e /\ In e es | V _ => False end
    | CEdge e' => match x with E e => is_edge g e /\ e = e' | V _ => False end
    | CEdgesWithProperty n => match x with E e => is_edge g e /\ prop_of x n <> None | V _ => False end
    | CEdgesWithValue n y => match x with E e => is_edge g e /\ equals x n y | V _ => False end
    | COut c sets =>
      match x with
      | E e => is_edge g e /\ (exists v, selects c (V v) /\ vid v = eout e) /\ typed (final pset_type sets) (et e)
      | V v => is_vertex g v /\ (exists e, selects c (E e) /\ vid v = eout e) /\ typed (final pset_type sets) (vt v)
      end
    | CIn c sets =>
      match x with
      | E e => is_edge g e /\ (exists v, selects c (V v) /\ vid v = ein e) /\ typed (final pset_type sets) (et e)
      | V v => is_vertex g v /\ (exists e, selects c (E e) /\ vid v = ein e) /\ typed (final pset_type sets) (vt v)
      end
    | CWith c n => selects c x /\ prop_of x n <> None
    | CWithout c n => selects c x /\ prop_of x n = None
    | CEqual c n y => selects c x /\ equals x n y
    | CNotEqual c n y => selects c x /\ ~ equals x n y
    | CInclude c => selects c x
    end.
End Selects.

(** The steps of a chain that have a limit. *)
Fixpoint limits (c : chain) : list (chain * N) :=
  match c with
  | CRange sets => [(c, final_limit (final rset_limit sets))]
  | COut i sets | CIn i sets => (c, final_limit (final pset_limit sets)) :: limits i
  | CWith c _ | CWithout c _ | CEqual c _ _ | CNotEqual c _ _ | CInclude c => limits c
  | _ => []
  end.
(** The property names a chain looks up in an index. *)
Fixpoint looked_up (c : chain) : list ident :=
  match c with
  | CVerticesWithProperty n | CVerticesWithValue n _ | CEdgesWithProperty n | CEdgesWithValue n _ => [n]
  | CWith c n | CWithout c n | CEqual c n _ | CNotEqual c n _ => n :: looked_up c
  | COut c _ | CIn c _ | CInclude c => looked_up c
  | _ => []
  end.
Definition elems_of (v : outv) : list elem :=
  match v with Vertices l => map V l | Edges l => map E l | _ => [] end.

(** A property query reports value [y] for property [n] of [x]. *)
Definition reported (w : outv) (x : elem) (n : ident) (y : json) : Prop :=
  match w with
  | VertexProperties l => exists p, In p l /\ x = V (vp_vertex p) /\ In (NProp n y) (vp_props p)
  | EdgeProperties l => exists p, In p l /\ x = E (ep_edge p) /\ In (NProp n y) (ep_props p)
  | _ => False
  end.
