(** * Specification: an abstract property graph.

    Independent of both backends.  A graph is a set of typed vertices, a set of
    edges, the properties of vertices and edges, and the set of indexed
    property names.  The query semantics is a relation between a graph, a query
    and its outputs. *)
From Verif Require Import Base OMap Json Types Db.

Set Implicit Arguments.

Record graph := Graph {
  gv : omap uuid ident;
  ge : oset edge;
  gvp : omap (uuid * ident) json;
  gep : omap (edge * ident) json;
  gix : oset ident }.

Definition g_empty : graph := Graph empty empty empty empty empty.

Definition is_vertex (g : graph) (v : vertex) : Prop := get (vid v) (gv g) = Some (vt v).
Definition is_edge (g : graph) (e : edge) : Prop := mem e (ge g) = true.

(** ** Updates *)

Definition g_create_vertex (g : graph) (v : vertex) : graph :=
  if mem (vid v) (gv g) then g
  else Graph (set (vid v) (vt v) (gv g)) (ge g) (gvp g) (gep g) (gix g).

Definition g_create_edge (g : graph) (e : edge) : graph :=
  if mem (eout e) (gv g) && mem (ein e) (gv g)
  then Graph (gv g) (add e (ge g)) (gvp g) (gep g) (gix g)
  else g.

Definition g_delete_vertex_properties (g : graph) (ps : list (uuid * ident)) : graph :=
  Graph (gv g) (ge g) (filt (fun kv => negb (inb (fst kv) ps)) (gvp g)) (gep g) (gix g).

Definition g_delete_edge_properties (g : graph) (ps : list (edge * ident)) : graph :=
  Graph (gv g) (ge g) (gvp g) (filt (fun kv => negb (inb (fst kv) ps)) (gep g)) (gix g).

Definition g_delete_edges (g : graph) (es : list edge) : graph :=
  Graph (gv g)
        (filt (fun kv => negb (inb (fst kv) es)) (ge g))
        (gvp g)
        (filt (fun kv => negb (inb (fst (fst kv)) es)) (gep g))
        (gix g).

Definition incident (ids : list uuid) (e : edge) : bool := inb (eout e) ids || inb (ein e) ids.

(** Deleting vertices: they go, with their properties, every edge into or out
    of them, and the properties of those edges. *)
Definition g_delete_vertices (g : graph) (ids : list uuid) : graph :=
  Graph (filt (fun kv => negb (inb (fst kv) ids)) (gv g))
        (filt (fun kv => negb (incident ids (fst kv))) (ge g))
        (filt (fun kv => negb (inb (fst (fst kv)) ids)) (gvp g))
        (filt (fun kv => negb (incident ids (fst (fst kv)) && mem (fst (fst kv)) (ge g))) (gep g))
        (gix g).

Definition g_set_vertex_properties (g : graph) (ids : list uuid) (n : ident) (v : json) : graph :=
  Graph (gv g) (ge g) (fold_left (fun ps id => set (id, n) v ps) ids (gvp g)) (gep g) (gix g).

Definition g_set_edge_properties (g : graph) (es : list edge) (n : ident) (v : json) : graph :=
  Graph (gv g) (ge g) (gvp g) (fold_left (fun ps e => set (e, n) v ps) es (gep g)) (gix g).

Definition g_index_property (g : graph) (n : ident) : graph :=
  Graph (gv g) (ge g) (gvp g) (gep g) (add n (gix g)).

Definition g_bulk_item (g : graph) (it : bulk_item) : graph :=
  match it with
  | BVertex v => g_create_vertex g v
  | BEdge e => g_create_edge g e
  | BVProp id n v => g_set_vertex_properties g [id] n v
  | BEProp e n v => g_set_edge_properties g [e] n v
  end.
Definition g_bulk_insert (g : graph) (items : list bulk_item) : graph := fold_left g_bulk_item items g.

(** ** Query semantics *)

Section Queries.
  (** Strict order on edge types used to order the edges of one vertex. *)
  Variable tlt : ident -> ident -> Prop.
  (** When a stored value answers a value query. *)
  Variable vmatch : json -> json -> Prop.
  Variable g : graph.

  Definition vlt (v w : vertex) : Prop := lt (vid v) (vid w).

  (** Edges ascend by outbound id, then type, then inbound id. *)
  Definition elt (e f : edge) : Prop :=
    lt (eout e) (eout f) \/
    eout e = eout f /\ (tlt (et e) (et f) \/ et e = et f /\ lt (ein e) (ein f)).

  Definition type_ok (t : option ident) (x : ident) : Prop :=
    match t with Some t' => x = t' | None => True end.
  Definition type_okb (t : option ident) (x : ident) : bool :=
    match t with Some t' => eqb x t' | None => true end.

  Definition endpoint (d : direction) (e : edge) : uuid :=
    match d with Outbound => eout e | Inbound => ein e end.

  (** The order in which the edges of a vertex are enumerated. *)
  Definition dir_lt (d : direction) (e f : edge) : Prop :=
    match d with Outbound => elt e f | Inbound => elt (reversed e) (reversed f) end.

  Definition found (id : uuid) : list vertex :=
    match get id (gv g) with Some t => [Vertex id t] | None => [] end.

  Definition limited {A} (limit : N) (l : list A) : list A := firstn (N.to_nat limit) l.

  (** The edges of vertex [v] in direction [d] with type filter [t]. *)
  Definition edges_at (d : direction) (t : option ident) (v : vertex) (l : list edge) : Prop :=
    listing (dir_lt d) (fun e => is_edge g e /\ endpoint d e = vid v /\ type_ok t (et e)) l.

  (** Selected properties of an owner, given by its property function. *)
  Definition props_at (p : ident -> option json) (name : option ident) (l : list nprop) : Prop :=
    listing (fun a b => lt (np_name a) (np_name b))
            (fun a => p (np_name a) = Some (np_value a) /\ match name with Some n => np_name a = n | None => True end) l.

  Definition vprop_fn (v : vertex) (n : ident) : option json := get (vid v, n) (gvp g).
  Definition eprop_fn (e : edge) (n : ident) : option json := get (e, n) (gep g).

  Definition has (p : ident -> option json) (n : ident) : Prop := exists x, p n = Some x.
  Definition has_value (p : ident -> option json) (n : ident) (v : json) : Prop :=
    exists x, p n = Some x /\ vmatch x v.

  Definition flag_holds (flag : bool) (P : Prop) : Prop := if flag then P else ~ P.

  Definition indexed (n : ident) : Prop := mem n (gix g) = true.

  Definition nonempty_v (x : vertex * list nprop) : list vprops :=
    match snd x with [] => [] | _ => [VProps (fst x) (snd x)] end.
  Definition nonempty_e (x : edge * list nprop) : list eprops :=
    match snd x with [] => [] | _ => [EProps (fst x) (snd x)] end.

  (** A stage consuming an [Include] exports what the include produced. *)
  Definition exported (inner : query) (v : outv) : list outv :=
    match inner with QInclude _ => [v] | _ => [] end.

  Definition out_size (v : outv) : option N :=
    match v with
    | Vertices l => Some (lenN l)
    | Edges l => Some (lenN l)
    | VertexProperties l => Some (lenN l)
    | EdgeProperties l => Some (lenN l)
    | Count _ => None
    end.

  Definition is_elems (v : outv) : bool := match v with Vertices _ | Edges _ => true | _ => false end.

  (** [evals q ex v]: the result of [q] is [v]; [ex] are the outputs of
      consumed includes, innermost first. *)
  Inductive evals : query -> list outv -> outv -> Prop :=
  | ev_all_vertex l :
      listing vlt (is_vertex g) l ->
      evals QAllVertex [] (Vertices l)
  | ev_range limit t start l :
      listing vlt (fun v => is_vertex g v /\ type_ok t (vt v) /\
                            match start with Some id => ~ lt (vid v) id | None => True end) l ->
      evals (QRangeVertex limit t start) [] (Vertices (limited limit l))
  | ev_specific_vertex ids :
      evals (QSpecificVertex ids) [] (Vertices (flat_map found ids))
  | ev_vpresence n l :
      indexed n -> NoDup l ->
      (forall v, In v l <-> is_vertex g v /\ has (vprop_fn v) n) ->
      evals (QVertexWithPropertyPresence n) [] (Vertices l)
  | ev_vvalue n x l :
      indexed n -> NoDup l ->
      (forall v, In v l <-> is_vertex g v /\ has_value (vprop_fn v) n x) ->
      evals (QVertexWithPropertyValue n x) [] (Vertices l)
  | ev_all_edge l :
      listing elt (is_edge g) l ->
      evals QAllEdge [] (Edges l)
  | ev_specific_edge es l :
      keeps (is_edge g) es l ->
      evals (QSpecificEdge es) [] (Edges l)
  | ev_epresence n l :
      indexed n -> NoDup l ->
      (forall e, In e l <-> is_edge g e /\ has (eprop_fn e) n) ->
      evals (QEdgeWithPropertyPresence n) [] (Edges l)
  | ev_evalue n x l :
      indexed n -> NoDup l ->
      (forall e, In e l <-> is_edge g e /\ has_value (eprop_fn e) n x) ->
      evals (QEdgeWithPropertyValue n x) [] (Edges l)
  | ev_pipe_edges inner d limit t ex es l :
      evals inner ex (Edges es) ->
      keeps (fun v => type_ok t (vt v)) (flat_map found (map (endpoint d) es)) l ->
      evals (QPipe inner d limit t) (ex ++ exported inner (Edges es)) (Vertices (limited limit l))
  | ev_pipe_vertices inner d limit t ex vs ls :
      evals inner ex (Vertices vs) ->
      Forall2 (edges_at d t) vs ls ->
      evals (QPipe inner d limit t) (ex ++ exported inner (Vertices vs)) (Edges (limited limit (concat ls)))
  | ev_props_vertices inner name ex vs pss :
      evals inner ex (Vertices vs) ->
      Forall2 (fun v ps => props_at (vprop_fn v) name ps) vs pss ->
      evals (QPipeProperty inner name) (ex ++ exported inner (Vertices vs))
            (VertexProperties (flat_map nonempty_v (combine vs pss)))
  | ev_props_edges inner name ex es pss :
      evals inner ex (Edges es) ->
      Forall2 (fun e ps => props_at (eprop_fn e) name ps) es pss ->
      evals (QPipeProperty inner name) (ex ++ exported inner (Edges es))
            (EdgeProperties (flat_map nonempty_e (combine es pss)))
  | ev_presence_vertices inner n ok ex vs l :
      evals inner ex (Vertices vs) -> indexed n ->
      keeps (fun v => flag_holds ok (has (vprop_fn v) n)) vs l ->
      evals (QPipeWithPropertyPresence inner n ok) (ex ++ exported inner (Vertices vs)) (Vertices l)
  | ev_presence_edges inner n ok ex es l :
      evals inner ex (Edges es) -> indexed n ->
      keeps (fun e => flag_holds ok (has (eprop_fn e) n)) es l ->
      evals (QPipeWithPropertyPresence inner n ok) (ex ++ exported inner (Edges es)) (Edges l)
  | ev_value_vertices inner n x ok ex vs l :
      evals inner ex (Vertices vs) -> indexed n ->
      keeps (fun v => flag_holds ok (has_value (vprop_fn v) n x)) vs l ->
      evals (QPipeWithPropertyValue inner n x ok) (ex ++ exported inner (Vertices vs)) (Vertices l)
  | ev_value_edges inner n x ok ex es l :
      evals inner ex (Edges es) -> indexed n ->
      keeps (fun e => flag_holds ok (has_value (eprop_fn e) n x)) es l ->
      evals (QPipeWithPropertyValue inner n x ok) (ex ++ exported inner (Edges es)) (Edges l)
  | ev_include inner ex v :
      evals inner ex v -> evals (QInclude inner) ex v
  | ev_count inner ex v n :
      evals inner ex v -> out_size v = Some n ->
      evals (QCount inner) (ex ++ exported inner v) (Count n).

  (** The stage directly below a stage, and the property name whose index a
      stage consults. *)
  Definition inner_of (q : query) : option query :=
    match q with
    | QPipe i _ _ _ | QPipeProperty i _ | QPipeWithPropertyPresence i _ _
    | QPipeWithPropertyValue i _ _ _ | QInclude i | QCount i => Some i
    | _ => None
    end.
  Definition index_of (q : query) : option ident :=
    match q with
    | QVertexWithPropertyPresence n | QVertexWithPropertyValue n _
    | QEdgeWithPropertyPresence n | QEdgeWithPropertyValue n _
    | QPipeWithPropertyPresence _ n _ | QPipeWithPropertyValue _ n _ _ => Some n
    | _ => None
    end.
  (** Whether a stage accepts what the stage below produced. *)
  Definition accepts (q : query) (v : outv) : bool :=
    match q with
    | QInclude _ => true
    | QCount _ => match v with Count _ => false | _ => true end
    | _ => is_elems v
    end.

  (** [fails q e]: [q] fails with error [e]. *)
  Inductive fails : query -> error -> Prop :=
  | fail_inner q inner e : inner_of q = Some inner -> fails inner e -> fails q e
  | fail_kind q inner ex v :
      inner_of q = Some inner -> evals inner ex v -> accepts q v = false -> fails q OperationOnQuery
  | fail_leaf q n :
      inner_of q = None -> index_of q = Some n -> ~ indexed n -> fails q NotIndexed
  | fail_stage q inner n ex v :
      inner_of q = Some inner -> evals inner ex v -> accepts q v = true ->
      index_of q = Some n -> ~ indexed n -> fails q NotIndexed.
End Queries.

(** ** One API call on the abstract graph *)

Section Step.
  Variable tlt : ident -> ident -> Prop.
  Variable vmatch : json -> json -> Prop.

  Definition vprop_keys (l : list vprops) : list (uuid * ident) :=
    flat_map (fun x => map (fun p => (vid (vp_vertex x), np_name p)) (vp_props x)) l.
  Definition eprop_keys (l : list eprops) : list (edge * ident) :=
    flat_map (fun x => map (fun p => (ep_edge x, np_name p)) (ep_props x)) l.

  (** [spec_step g o r g']: the call [o] on [g] may return [r] and leave [g']. *)
  Inductive spec_step (g : graph) : op -> outcome res -> graph -> Prop :=
  | sp_create_vertex v :
      spec_step g (OCreateVertex v) (Ok (RBoolean (negb (mem (vid v) (gv g))))) (g_create_vertex g v)
  | sp_create_type_ok id t :
      mem id (gv g) = false ->
      spec_step g (OCreateVertexFromType id t) (Ok (RUuid id)) (g_create_vertex g (Vertex id t))
  | sp_create_type_taken id t :
      mem id (gv g) = true ->
      spec_step g (OCreateVertexFromType id t) (Err UuidTaken) g
  | sp_create_edge e :
      spec_step g (OCreateEdge e) (Ok (RBoolean (mem (eout e) (gv g) && mem (ein e) (gv g)))) (g_create_edge g e)
  | sp_get q ex v :
      evals tlt vmatch g q ex v -> spec_step g (OGet q) (Ok (ROut (ex ++ [v]))) g
  | sp_get_err q e :
      fails tlt vmatch g q e -> spec_step g (OGet q) (Err e) g
  | sp_delete_vertices q ex vs :
      evals tlt vmatch g q ex (Vertices vs) ->
      spec_step g (ODelete q) (Ok RUnit) (g_delete_vertices g (map vid vs))
  | sp_delete_edges q ex es :
      evals tlt vmatch g q ex (Edges es) -> spec_step g (ODelete q) (Ok RUnit) (g_delete_edges g es)
  | sp_delete_vprops q ex l :
      evals tlt vmatch g q ex (VertexProperties l) ->
      spec_step g (ODelete q) (Ok RUnit) (g_delete_vertex_properties g (vprop_keys l))
  | sp_delete_eprops q ex l :
      evals tlt vmatch g q ex (EdgeProperties l) ->
      spec_step g (ODelete q) (Ok RUnit) (g_delete_edge_properties g (eprop_keys l))
  | sp_delete_count q ex n :
      evals tlt vmatch g q ex (Count n) -> spec_step g (ODelete q) (Err OperationOnQuery) g
  | sp_delete_err q e :
      fails tlt vmatch g q e -> spec_step g (ODelete q) (Err e) g
  | sp_set_vertices q n x ex vs :
      evals tlt vmatch g q ex (Vertices vs) ->
      spec_step g (OSetProperties q n x) (Ok RUnit) (g_set_vertex_properties g (map vid vs) n x)
  | sp_set_edges q n x ex es :
      evals tlt vmatch g q ex (Edges es) ->
      spec_step g (OSetProperties q n x) (Ok RUnit) (g_set_edge_properties g es n x)
  | sp_set_kind q n x ex v :
      evals tlt vmatch g q ex v -> is_elems v = false ->
      spec_step g (OSetProperties q n x) (Err OperationOnQuery) g
  | sp_set_err q n x e :
      fails tlt vmatch g q e -> spec_step g (OSetProperties q n x) (Err e) g
  | sp_bulk items :
      spec_step g (OBulkInsert items) (Ok RUnit) (g_bulk_insert g items)
  | sp_index n :
      spec_step g (OIndexProperty n) (Ok RUnit) (g_index_property g n)
  | sp_sync :
      spec_step g OSync (Ok RUnit) g
  | sp_tdv vs :
      spec_step g (TDeleteVertices vs) (Ok RUnit) (g_delete_vertices g (map vid vs))
  | sp_tde es :
      spec_step g (TDeleteEdges es) (Ok RUnit) (g_delete_edges g es)
  | sp_tdvp ps :
      spec_step g (TDeleteVertexProperties ps) (Ok RUnit) (g_delete_vertex_properties g ps)
  | sp_tdep ps :
      spec_step g (TDeleteEdgeProperties ps) (Ok RUnit) (g_delete_edge_properties g ps)
  | sp_tsv ids n x :
      spec_step g (TSetVertexProperties ids n x) (Ok RUnit) (g_set_vertex_properties g ids n x)
  | sp_tse es n x :
      spec_step g (TSetEdgeProperties es n x) (Ok RUnit) (g_set_edge_properties g es n x).
End Step.
