(** * lib/src/database.rs: the [Transaction] trait, [query] and [Database]. *)
From Verif Require Import Base OMap Json Types Util.

Set Implicit Arguments.

(** An iterator of results ([DynIter], database.rs 12). *)
Definition iter (A : Type) := list (outcome A).

(** database.rs 24-196: the [Transaction] trait as a record of functions over a
    store state [S].  [&self] methods read, [&mut self] methods return the new
    state next to their result. *)
Record txn_ops (S : Type) := TxnOps {
  t_vertex_count : S -> outcome N;
  t_all_vertices : S -> outcome (iter vertex);
  t_range_vertices : S -> uuid -> outcome (iter vertex);
  t_specific_vertices : S -> list uuid -> outcome (iter vertex);
  t_vertex_ids_with_property : S -> ident -> outcome (option (iter uuid));
  t_vertex_ids_with_property_value : S -> ident -> json -> outcome (option (iter uuid));
  t_edge_count : S -> outcome N;
  t_all_edges : S -> outcome (iter edge);
  t_range_edges : S -> edge -> outcome (iter edge);
  t_range_reversed_edges : S -> edge -> outcome (iter edge);
  t_specific_edges : S -> list edge -> outcome (iter edge);
  t_edges_with_property : S -> ident -> outcome (option (iter edge));
  t_edges_with_property_value : S -> ident -> json -> outcome (option (iter edge));
  t_vertex_property : S -> vertex -> ident -> outcome (option json);
  t_all_vertex_properties : S -> vertex -> outcome (iter (ident * json));
  t_edge_property : S -> edge -> ident -> outcome (option json);
  t_all_edge_properties : S -> edge -> outcome (iter (ident * json));
  t_delete_vertices : S -> list vertex -> outcome unit * S;
  t_delete_edges : S -> list edge -> outcome unit * S;
  t_delete_vertex_properties : S -> list (uuid * ident) -> outcome unit * S;
  t_delete_edge_properties : S -> list (edge * ident) -> outcome unit * S;
  t_sync : S -> outcome unit * S;
  t_create_vertex : S -> vertex -> outcome bool * S;
  t_create_edge : S -> edge -> outcome bool * S;
  t_bulk_insert : S -> list bulk_item -> outcome unit * S;
  t_index_property : S -> ident -> outcome unit * S;
  t_set_vertex_properties : S -> list uuid -> ident -> json -> outcome unit * S;
  t_set_edge_properties : S -> list edge -> ident -> json -> outcome unit * S }.

(** Sequencing of state-changing calls with [?]. *)
Definition sbind {S A B} (x : outcome A * S) (f : A -> S -> outcome B * S) : outcome B * S :=
  match x with
  | (Ok a, s) => f a s
  | (Err e, s) => (Err e, s)
  | (Panic, s) => (Panic, s)
  end.

(** database.rs 154-173: the default [bulk_insert]. *)
Fixpoint default_bulk_insert {S} (cv : S -> vertex -> outcome bool * S) (ce : S -> edge -> outcome bool * S)
  (sv : S -> list uuid -> ident -> json -> outcome unit * S)
  (se : S -> list edge -> ident -> json -> outcome unit * S)
  (s : S) (items : list bulk_item) : outcome unit * S :=
  match items with
  | [] => (Ok tt, s)
  | BVertex v :: r => sbind (cv s v) (fun _ s' => default_bulk_insert cv ce sv se s' r)
  | BEdge e :: r => sbind (ce s e) (fun _ s' => default_bulk_insert cv ce sv se s' r)
  | BVProp id n v :: r => sbind (sv s [id] n v) (fun _ s' => default_bulk_insert cv ce sv se s' r)
  | BEProp e n v :: r => sbind (se s [e] n v) (fun _ s' => default_bulk_insert cv ce sv se s' r)
  end.

(** The closures [|r| match r { Ok(x) => p(x), Err(_) => true }] used with
    [filter] and [take_while]. *)
Definition ok_or_true {A} (p : A -> bool) (r : outcome A) : bool :=
  match r with Ok x => p x | _ => true end.

(** The filter on an optional type (database.rs 34-218). *)
Definition t_matches {A} (f : A -> ident) (t : option ident) (r : outcome A) : bool :=
  match t with Some t' => ok_or_true (fun x => eqb (f x) t') r | None => true end.

Section Query.
  Context {S : Type}.
  Variable ops : txn_ops S.
  Variable s : S.

  (** [(q.limit as usize) - edges.len()] (database.rs 466): a debug build
      panics on underflow; the model panics in both builds (and underflow is
      proved impossible). *)
  Definition checked_sub (a b : N) : outcome N := if (a <? b)%N then Panic else Ok (a - b)%N.

  (** database.rs 438-475: the loop over piped vertices. *)
  Fixpoint pipe_vertices (dir : direction) (limit : N) (t : option ident)
    (vs : list vertex) (edges : list edge) : outcome (list edge) :=
    match vs with
    | [] => Ok edges
    | v :: r =>
      let lower := Edge (vid v) (match t with Some t' => t' | None => empty_ident end) nil_uuid in
      let? it := match dir with
                 | Outbound => t_range_edges ops s lower
                 | Inbound => t_range_reversed_edges ops s lower
                 end in
      let it := take_while (ok_or_true (fun e => eqb (eout e) (vid v))) it in
      let it := filter (t_matches et t) it in
      let it := match dir with Inbound => map (omapo reversed) it | Outbound => it end in
      let? n := checked_sub limit (lenN edges) in
      let? new := collect (takeN n it) in
      let edges' := edges ++ new in
      if (limit <=? lenN edges')%N then Ok edges' else pipe_vertices dir limit t r edges'
    end.

  (** database.rs 416-434: piped edges to vertices. *)
  Definition pipe_edges (dir : direction) (limit : N) (t : option ident) (es : list edge)
    : outcome (list vertex) :=
    let ids := map (match dir with Outbound => eout | Inbound => ein end) es in
    let? it := t_specific_vertices ops s ids in
    collect (takeN limit (filter (t_matches vt t) it)).

  (** database.rs 517-537: properties of piped vertices. *)
  Fixpoint props_of_vertices (name : option ident) (vs : list vertex) : outcome (list vprops) :=
    match vs with
    | [] => Ok []
    | v :: r =>
      let? props :=
        match name with
        | Some n => let? o := t_vertex_property ops s v n in
                    Ok (match o with Some x => [NProp n x] | None => [] end)
        | None => let? it := t_all_vertex_properties ops s v in
                  let? l := collect it in
                  Ok (map (fun p => NProp (fst p) (snd p)) l)
        end in
      let? rest := props_of_vertices name r in
      Ok (match props with [] => rest | _ => VProps v props :: rest end)
    end.

  (** database.rs 496-516: properties of piped edges. *)
  Fixpoint props_of_edges (name : option ident) (es : list edge) : outcome (list eprops) :=
    match es with
    | [] => Ok []
    | e :: r =>
      let? props :=
        match name with
        | Some n => let? o := t_edge_property ops s e n in
                    Ok (match o with Some x => [NProp n x] | None => [] end)
        | None => let? it := t_all_edge_properties ops s e in
                  let? l := collect it in
                  Ok (map (fun p => NProp (fst p) (snd p)) l)
        end in
      let? rest := props_of_edges name r in
      Ok (match props with [] => rest | _ => EProps e props :: rest end)
    end.

  (** The [match ... { Some(iter) => .., None => return Err(NotIndexed) }] idiom. *)
  Definition indexed_or_err {A} (x : outcome (option (iter A))) : outcome (list A) :=
    let? o := x in
    match o with Some it => collect it | None => Err NotIndexed end.

  (** [HashSet::contains] of collected results. *)
  Definition contains {A} {O : Ord A} (x : A) (l : list A) : bool := existsb (eqb x) l.

  (** [(flag && contains) || (!flag && !contains)] *)
  Definition flagged (flag c : bool) : bool := (flag && c) || (negb flag && negb c).

  (** The pattern [Query::Include(_)] (database.rs 34-218). *)
  Definition is_include (q : query) : bool := match q with QInclude _ => true | _ => false end.

  (** [output.pop().unwrap()]; the output vector is kept reversed (its last
      element is the head of the list). *)
  Definition pop (out : list outv) : outcome (outv * list outv) :=
    match out with v :: r => Ok (v, r) | [] => Panic end.

  (** "keep the value exported" (database.rs 484-487 and three more places). *)
  Definition re_export (inner : query) (piped : outv) (out : list outv) : list outv :=
    if is_include inner then piped :: out else out.

  (** database.rs 380-698: [query].  The iterators are pure, so reading them
      eagerly is the same as reading them lazily. *)
  Fixpoint query_exec (q : query) (out : list outv) : outcome (list outv) :=
    match q with
    | QAllVertex =>
      let? it := t_all_vertices ops s in
      let? l := collect it in
      Ok (Vertices l :: out)
    | QRangeVertex limit t start =>
      let? it := match start with
                 | Some id => t_range_vertices ops s id
                 | None => t_all_vertices ops s
                 end in
      let? l := collect (takeN limit (filter (t_matches vt t) it)) in
      Ok (Vertices l :: out)
    | QSpecificVertex ids =>
      let? it := t_specific_vertices ops s ids in
      let? l := collect it in
      Ok (Vertices l :: out)
    | QPipe inner dir limit t =>
      let? out1 := query_exec inner out in
      let? (piped, out2) := pop out1 in
      let? value := match piped with
                    | Edges es => omapo Vertices (pipe_edges dir limit t es)
                    | Vertices vs => omapo Edges (pipe_vertices dir limit t vs [])
                    | _ => Err OperationOnQuery
                    end in
      Ok (value :: re_export inner piped out2)
    | QPipeProperty inner name =>
      let? out1 := query_exec inner out in
      let? (piped, out2) := pop out1 in
      let? value := match piped with
                    | Edges es => omapo EdgeProperties (props_of_edges name es)
                    | Vertices vs => omapo VertexProperties (props_of_vertices name vs)
                    | _ => Err OperationOnQuery
                    end in
      Ok (value :: re_export inner piped out2)
    | QVertexWithPropertyPresence n =>
      let? ids := indexed_or_err (t_vertex_ids_with_property ops s n) in
      let? it := t_specific_vertices ops s ids in
      let? l := collect it in
      Ok (Vertices l :: out)
    | QVertexWithPropertyValue n v =>
      let? ids := indexed_or_err (t_vertex_ids_with_property_value ops s n v) in
      let? it := t_specific_vertices ops s ids in
      let? l := collect it in
      Ok (Vertices l :: out)
    | QEdgeWithPropertyPresence n =>
      let? l := indexed_or_err (t_edges_with_property ops s n) in
      Ok (Edges l :: out)
    | QEdgeWithPropertyValue n v =>
      let? l := indexed_or_err (t_edges_with_property_value ops s n v) in
      Ok (Edges l :: out)
    | QPipeWithPropertyPresence inner n ex =>
      let? out1 := query_exec inner out in
      let? (piped, out2) := pop out1 in
      let? value := match piped with
                    | Edges es =>
                      let? l := indexed_or_err (t_edges_with_property ops s n) in
                      Ok (Edges (filter (fun e => flagged ex (contains e l)) es))
                    | Vertices vs =>
                      let? l := indexed_or_err (t_vertex_ids_with_property ops s n) in
                      Ok (Vertices (filter (fun v => flagged ex (contains (vid v) l)) vs))
                    | _ => Err OperationOnQuery
                    end in
      Ok (value :: re_export inner piped out2)
    | QPipeWithPropertyValue inner n x eq =>
      let? out1 := query_exec inner out in
      let? (piped, out2) := pop out1 in
      let? value := match piped with
                    | Edges es =>
                      let? l := indexed_or_err (t_edges_with_property_value ops s n x) in
                      Ok (Edges (filter (fun e => flagged eq (contains e l)) es))
                    | Vertices vs =>
                      let? l := indexed_or_err (t_vertex_ids_with_property_value ops s n x) in
                      Ok (Vertices (filter (fun v => flagged eq (contains (vid v) l)) vs))
                    | _ => Err OperationOnQuery
                    end in
      Ok (value :: re_export inner piped out2)
    | QAllEdge =>
      let? it := t_all_edges ops s in
      let? l := collect it in
      Ok (Edges l :: out)
    | QSpecificEdge es =>
      let? it := t_specific_edges ops s es in
      let? l := collect it in
      Ok (Edges l :: out)
    | QInclude inner =>
      let? out1 := query_exec inner out in
      let? (v, out2) := pop out1 in
      Ok (v :: out2)
    | QCount inner =>
      match inner with
      | QAllVertex => let? n := t_vertex_count ops s in Ok (Count n :: out)
      | QAllEdge => let? n := t_edge_count ops s in Ok (Count n :: out)
      | _ =>
        let? out1 := query_exec inner out in
        let? (piped, out2) := pop out1 in
        let? n := match piped with
                  | Vertices l => Ok (lenN l)
                  | Edges l => Ok (lenN l)
                  | VertexProperties l => Ok (lenN l)
                  | EdgeProperties l => Ok (lenN l)
                  | Count _ => Err OperationOnQuery
                  end in
        Ok (Count n :: re_export inner piped out2)
      end
    end.

  (** database.rs 279-287: [get]. *)
  Definition db_get (q : query) : outcome (list outv) := omapo (@rev outv) (query_exec q []).
End Query.

Section Database.
  Context {S : Type}.
  Variable ops : txn_ops S.

  (** database.rs 293-332: [delete]. *)
  Definition db_delete (s : S) (q : query) : outcome unit * S :=
    match (let? out := query_exec ops s q [] in pop out) with
    | Ok (Vertices l, _) => t_delete_vertices ops s l
    | Ok (Edges l, _) => t_delete_edges ops s l
    | Ok (VertexProperties l, _) =>
      t_delete_vertex_properties ops s
        (flat_map (fun vps => map (fun p => (vid (vp_vertex vps), np_name p)) (vp_props vps)) l)
    | Ok (EdgeProperties l, _) =>
      t_delete_edge_properties ops s
        (flat_map (fun eps => map (fun p => (ep_edge eps, np_name p)) (ep_props eps)) l)
    | Ok (Count _, _) => (Err OperationOnQuery, s)
    | Err e => (Err e, s)
    | Panic => (Panic, s)
    end.

  (** database.rs 340-358: [set_properties]. *)
  Definition db_set_properties (s : S) (q : query) (name : ident) (value : json) : outcome unit * S :=
    match (let? out := query_exec ops s q [] in pop out) with
    | Ok (Vertices l, _) => t_set_vertex_properties ops s (map vid l) name value
    | Ok (Edges l, _) => t_set_edge_properties ops s l name value
    | Ok (_, _) => (Err OperationOnQuery, s)
    | Err e => (Err e, s)
    | Panic => (Panic, s)
    end.

  (** database.rs 254-262: [create_vertex_from_type]; the generated id is an input. *)
  Definition db_create_vertex_from_type (s : S) (id : uuid) (t : ident) : outcome uuid * S :=
    sbind (t_create_vertex ops s (Vertex id t))
          (fun created s' => if created then (Ok id, s') else (Err UuidTaken, s')).
End Database.

(** ** API calls

    The calls of [Database] (database.rs 221-378), plus the state-changing
    calls of the public [Transaction] trait, which plugins and library users
    can make directly through [datastore.transaction()]. *)
Inductive op :=
| OCreateVertex (v : vertex)
| OCreateVertexFromType (id : uuid) (t : ident)
| OCreateEdge (e : edge)
| OGet (q : query)
| ODelete (q : query)
| OSetProperties (q : query) (name : ident) (value : json)
| OBulkInsert (items : list bulk_item)
| OIndexProperty (name : ident)
| OSync
| TDeleteVertices (vs : list vertex)
| TDeleteEdges (es : list edge)
| TDeleteVertexProperties (ps : list (uuid * ident))
| TDeleteEdgeProperties (ps : list (edge * ident))
| TSetVertexProperties (ids : list uuid) (name : ident) (value : json)
| TSetEdgeProperties (es : list edge) (name : ident) (value : json).

(** What a call returns. *)
Inductive res := RUnit | RBoolean (b : bool) | RUuid (u : uuid) | ROut (l : list outv).

(** The results of the calls under one type; not in the code. *)
Definition resw {A S} (f : A -> res) (x : outcome A * S) : outcome res * S := (omapo f (fst x), snd x).

(** One call (database.rs 221-378, the methods of [Database]; 40-197, those of [Transaction]). *)
Definition exec {S} (ops : txn_ops S) (s : S) (o : op) : outcome res * S :=
  let unit_ (_ : unit) := RUnit in
  match o with
  | OCreateVertex v => resw RBoolean (t_create_vertex ops s v)
  | OCreateVertexFromType id t => resw RUuid (db_create_vertex_from_type ops s id t)
  | OCreateEdge e => resw RBoolean (t_create_edge ops s e)
  | OGet q => (omapo ROut (db_get ops s q), s)
  | ODelete q => resw unit_ (db_delete ops s q)
  | OSetProperties q n v => resw unit_ (db_set_properties ops s q n v)
  | OBulkInsert items => resw unit_ (t_bulk_insert ops s items)
  | OIndexProperty n => resw unit_ (t_index_property ops s n)
  | OSync => resw unit_ (t_sync ops s)
  | TDeleteVertices vs => resw unit_ (t_delete_vertices ops s vs)
  | TDeleteEdges es => resw unit_ (t_delete_edges ops s es)
  | TDeleteVertexProperties ps => resw unit_ (t_delete_vertex_properties ops s ps)
  | TDeleteEdgeProperties ps => resw unit_ (t_delete_edge_properties ops s ps)
  | TSetVertexProperties ids n v => resw unit_ (t_set_vertex_properties ops s ids n v)
  | TSetEdgeProperties es n v => resw unit_ (t_set_edge_properties ops s es n v)
  end.
