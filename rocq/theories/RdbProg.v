(** * lib/src/rdb/datastore.rs and lib/src/database.rs, step by step

    [Rdb.v] models a call on the RocksDB datastore as one function of the state.
    When calls run concurrently, a call does not see one state: each of its reads
    sees the database as it is at that moment, and only the single
    [DB::write(batch)] is atomic.  Here each call is a program whose steps are the
    individual reads, lock operations and writes, in the order in which the code
    makes them.  [alone_step] below shows that a program that runs without
    interference does what [Rdb.v] says. *)
From Verif Require Import Base OMap Json Types Util Db Rdb Conc.

Set Implicit Arguments.

(** ** Programs

    - [PDb k]: one read of the database: a [get]/[exists], or the creation of an
      iterator (a RocksDB iterator sees the database as of its creation).
    - [PIx k]: [indexed_properties.read().unwrap().contains(..)]: the read guard
      is a temporary.
    - [PShared k], [PExcl k]: [indexed_properties.read()/.write()] bound to a
      variable: the guard is held until the method returns, that is (for every
      such method) until the call returns.
    - [PSetIx ix k]: the set behind the write guard becomes [ix].
    - [PWrite b k]: [db.write(batch)?]. *)
Inductive prog (A : Type) :=
| PRet (x : outcome A)
| PDb (k : db -> prog A)
| PIx (k : oset ident -> prog A)
| PShared (k : oset ident -> prog A)
| PExcl (k : oset ident -> prog A)
| PSetIx (ix : oset ident) (k : prog A)
| PWrite (b : batch) (k : prog A).

Arguments PRet {A}.

(** [?]: an error or a panic ends the call. *)
Fixpoint pbind {A B} (p : prog A) (f : A -> prog B) : prog B :=
  match p with
  | PRet (Ok a) => f a
  | PRet (Err e) => PRet (Err e)
  | PRet Panic => PRet Panic
  | PDb k => PDb (fun d => pbind (k d) f)
  | PIx k => PIx (fun ix => pbind (k ix) f)
  | PShared k => PShared (fun ix => pbind (k ix) f)
  | PExcl k => PExcl (fun ix => pbind (k ix) f)
  | PSetIx ix k => PSetIx ix (pbind k f)
  | PWrite b k => PWrite b (pbind k f)
  end.

Notation "'let!' x := m 'in' k" := (pbind m (fun x => k)) (at level 200, x pattern, right associativity).

Definition pmap {A B} (f : A -> B) (p : prog A) : prog B := let! a := p in PRet (Ok (f a)).
(** One read of the database. *)
Definition rd {A} (f : db -> outcome A) : prog A := PDb (fun d => PRet (f d)).

Section Progs.
  Variable H : list byte -> N.
  Variable enc : json -> bytes.
  Variable dec : bytes -> option json.

  (** ** Reading methods of the transaction (rdb/datastore.rs) *)

  (** 54-57, 59-62, 64-67 *)
  Definition p_vertex_count : prog N := rd (fun d => Ok (lenN (vertices_from H d nil_uuid))).
  Definition p_range_vertices (id : uuid) : prog (iter vertex) := rd (fun d => Ok (vertices_from H d id)).
  Definition p_all_vertices : prog (iter vertex) := p_range_vertices nil_uuid.
  (** 69-77: one [get] per id.  (The code reads on demand; reading an id whose
      vertex is then not used has no effect.) *)
  Fixpoint p_specific_vertices (ids : list uuid) : prog (iter vertex) :=
    match ids with
    | [] => PRet (Ok [])
    | id :: r =>
      let! o := rd (fun d => Ok (vertex_get H d id)) in
      let! rest := p_specific_vertices r in
      PRet (Ok (match o with
                | Ok (Some t) => Ok (Vertex id t) :: rest
                | Ok None => rest
                | Err e => Err e :: rest
                | Panic => Panic :: rest
                end))
    end.
  (** 38-50: one [exists] per id. *)
  Fixpoint p_existing (l : iter uuid) : prog (iter uuid) :=
    match l with
    | [] => PRet (Ok [])
    | Ok id :: r =>
      let! b := rd (fun d => Ok (vertex_exists H d id)) in
      let! rest := p_existing r in
      PRet (Ok (if b then Ok id :: rest else rest))
    | x :: r => let! rest := p_existing r in PRet (Ok (x :: rest))
    end.
  (** 79-87 *)
  Definition p_vertex_ids_with_property (n : ident) : prog (option (iter uuid)) :=
    PIx (fun ix => if mem n ix then
      let! l := rd (fun d => Ok (vvalues_for_name H d n)) in pmap Some (p_existing l)
      else PRet (Ok None)).
  (** 89-97 *)
  Definition p_vertex_ids_with_property_value (n : ident) (v : json) : prog (option (iter uuid)) :=
    PIx (fun ix => if mem n ix then
      let! l := rd (fun d => Ok (vvalues_for_value H d n v)) in pmap Some (p_existing l)
      else PRet (Ok None)).
  (** 99-102, 104-107 *)
  Definition p_edge_count : prog N := rd (fun d => Ok (lenN (edges_all d))).
  Definition p_all_edges : prog (iter edge) := rd (fun d => Ok (edges_all d)).
  (** 109-121 *)
  Definition p_range_edges (e : edge) : prog (iter edge) := rd (fun d => Ok (edges_from H (d_edges d) e)).
  Definition p_range_reversed_edges (e : edge) : prog (iter edge) := rd (fun d => Ok (edges_from H (d_reversed d) e)).
  (** 123-133: one [contains] per edge. *)
  Fixpoint p_specific_edges (es : list edge) : prog (iter edge) :=
    match es with
    | [] => PRet (Ok [])
    | e :: r =>
      let! b := rd (fun d => Ok (edge_contains H d e)) in
      let! rest := p_specific_edges r in
      PRet (Ok (if b then Ok e :: rest else rest))
    end.
  (** 135-148 *)
  Definition p_edges_with_property (n : ident) : prog (option (iter edge)) :=
    PIx (fun ix => if mem n ix then rd (fun d => Ok (Some (evalues_for_name H d n))) else PRet (Ok None)).
  (** 150-163 *)
  Definition p_edges_with_property_value (n : ident) (v : json) : prog (option (iter edge)) :=
    PIx (fun ix => if mem n ix then rd (fun d => Ok (Some (evalues_for_value H d n v))) else PRet (Ok None)).
  (** 165-191 *)
  Definition p_vertex_property (v : vertex) (n : ident) : prog (option json) := rd (fun d => vprop_get H dec d (vid v) n).
  Definition p_all_vertex_properties (v : vertex) : prog (iter (ident * json)) :=
    rd (fun d => let? l := collect (vprops_for_owner H dec d (vid v)) in Ok (map (fun x => Ok (snd (fst x), snd x)) l)).
  Definition p_edge_property (e : edge) (n : ident) : prog (option json) := rd (fun d => eprop_get H dec d e n).
  Definition p_all_edge_properties (e : edge) : prog (iter (ident * json)) :=
    rd (fun d => let? l := collect (eprops_for_owner H dec d e) in Ok (map (fun x => Ok (snd (fst x), snd x)) l)).

  (** ** The query interpreter (database.rs 380-698), as in [Db.v] *)

  (** database.rs 438-475 *)
  Fixpoint p_pipe_vertices (dir : direction) (limit : N) (t : option ident)
    (vs : list vertex) (edges : list edge) : prog (list edge) :=
    match vs with
    | [] => PRet (Ok edges)
    | v :: r =>
      let lower := Edge (vid v) (match t with Some t' => t' | None => empty_ident end) nil_uuid in
      let! it := match dir with
                 | Outbound => p_range_edges lower
                 | Inbound => p_range_reversed_edges lower
                 end in
      let it := take_while (ok_or_true (fun e => eqb (eout e) (vid v))) it in
      let it := filter (t_matches et t) it in
      let it := match dir with Inbound => map (omapo reversed) it | Outbound => it end in
      let! n := PRet (checked_sub limit (lenN edges)) in
      let! new := PRet (collect (takeN n it)) in
      let edges' := edges ++ new in
      if (limit <=? lenN edges')%N then PRet (Ok edges') else p_pipe_vertices dir limit t r edges'
    end.

  (** database.rs 416-434 *)
  Definition p_pipe_edges (dir : direction) (limit : N) (t : option ident) (es : list edge) : prog (list vertex) :=
    let! it := p_specific_vertices (map (match dir with Outbound => eout | Inbound => ein end) es) in
    PRet (collect (takeN limit (filter (t_matches vt t) it))).

  (** database.rs 517-537 *)
  Fixpoint p_props_of_vertices (name : option ident) (vs : list vertex) : prog (list vprops) :=
    match vs with
    | [] => PRet (Ok [])
    | v :: r =>
      let! props :=
        match name with
        | Some n => let! o := p_vertex_property v n in
                    PRet (Ok (match o with Some x => [NProp n x] | None => [] end))
        | None => let! it := p_all_vertex_properties v in
                  let! l := PRet (collect it) in
                  PRet (Ok (map (fun p => NProp (fst p) (snd p)) l))
        end in
      let! rest := p_props_of_vertices name r in
      PRet (Ok (match props with [] => rest | _ => VProps v props :: rest end))
    end.

  (** database.rs 496-516 *)
  Fixpoint p_props_of_edges (name : option ident) (es : list edge) : prog (list eprops) :=
    match es with
    | [] => PRet (Ok [])
    | e :: r =>
      let! props :=
        match name with
        | Some n => let! o := p_edge_property e n in
                    PRet (Ok (match o with Some x => [NProp n x] | None => [] end))
        | None => let! it := p_all_edge_properties e in
                  let! l := PRet (collect it) in
                  PRet (Ok (map (fun p => NProp (fst p) (snd p)) l))
        end in
      let! rest := p_props_of_edges name r in
      PRet (Ok (match props with [] => rest | _ => EProps e props :: rest end))
    end.

  Definition p_indexed_or_err {A} (x : prog (option (iter A))) : prog (list A) :=
    let! o := x in
    match o with Some it => PRet (collect it) | None => PRet (Err NotIndexed) end.

  (** database.rs 380-698 *)
  Fixpoint p_query (q : query) (out : list outv) : prog (list outv) :=
    match q with
    | QAllVertex =>
      let! it := p_all_vertices in
      let! l := PRet (collect it) in
      PRet (Ok (Vertices l :: out))
    | QRangeVertex limit t start =>
      let! it := match start with Some id => p_range_vertices id | None => p_all_vertices end in
      let! l := PRet (collect (takeN limit (filter (t_matches vt t) it))) in
      PRet (Ok (Vertices l :: out))
    | QSpecificVertex ids =>
      let! it := p_specific_vertices ids in
      let! l := PRet (collect it) in
      PRet (Ok (Vertices l :: out))
    | QPipe inner dir limit t =>
      let! out1 := p_query inner out in
      let! (piped, out2) := PRet (pop out1) in
      let! value := match piped with
                    | Edges es => pmap Vertices (p_pipe_edges dir limit t es)
                    | Vertices vs => pmap Edges (p_pipe_vertices dir limit t vs [])
                    | _ => PRet (Err OperationOnQuery)
                    end in
      PRet (Ok (value :: re_export inner piped out2))
    | QPipeProperty inner name =>
      let! out1 := p_query inner out in
      let! (piped, out2) := PRet (pop out1) in
      let! value := match piped with
                    | Edges es => pmap EdgeProperties (p_props_of_edges name es)
                    | Vertices vs => pmap VertexProperties (p_props_of_vertices name vs)
                    | _ => PRet (Err OperationOnQuery)
                    end in
      PRet (Ok (value :: re_export inner piped out2))
    | QVertexWithPropertyPresence n =>
      let! ids := p_indexed_or_err (p_vertex_ids_with_property n) in
      let! it := p_specific_vertices ids in
      let! l := PRet (collect it) in
      PRet (Ok (Vertices l :: out))
    | QVertexWithPropertyValue n v =>
      let! ids := p_indexed_or_err (p_vertex_ids_with_property_value n v) in
      let! it := p_specific_vertices ids in
      let! l := PRet (collect it) in
      PRet (Ok (Vertices l :: out))
    | QEdgeWithPropertyPresence n =>
      let! l := p_indexed_or_err (p_edges_with_property n) in
      PRet (Ok (Edges l :: out))
    | QEdgeWithPropertyValue n v =>
      let! l := p_indexed_or_err (p_edges_with_property_value n v) in
      PRet (Ok (Edges l :: out))
    | QPipeWithPropertyPresence inner n ex =>
      let! out1 := p_query inner out in
      let! (piped, out2) := PRet (pop out1) in
      let! value := match piped with
                    | Edges es =>
                      let! l := p_indexed_or_err (p_edges_with_property n) in
                      PRet (Ok (Edges (filter (fun e => flagged ex (contains e l)) es)))
                    | Vertices vs =>
                      let! l := p_indexed_or_err (p_vertex_ids_with_property n) in
                      PRet (Ok (Vertices (filter (fun v => flagged ex (contains (vid v) l)) vs)))
                    | _ => PRet (Err OperationOnQuery)
                    end in
      PRet (Ok (value :: re_export inner piped out2))
    | QPipeWithPropertyValue inner n x eq =>
      let! out1 := p_query inner out in
      let! (piped, out2) := PRet (pop out1) in
      let! value := match piped with
                    | Edges es =>
                      let! l := p_indexed_or_err (p_edges_with_property_value n x) in
                      PRet (Ok (Edges (filter (fun e => flagged eq (contains e l)) es)))
                    | Vertices vs =>
                      let! l := p_indexed_or_err (p_vertex_ids_with_property_value n x) in
                      PRet (Ok (Vertices (filter (fun v => flagged eq (contains (vid v) l)) vs)))
                    | _ => PRet (Err OperationOnQuery)
                    end in
      PRet (Ok (value :: re_export inner piped out2))
    | QAllEdge =>
      let! it := p_all_edges in
      let! l := PRet (collect it) in
      PRet (Ok (Edges l :: out))
    | QSpecificEdge es =>
      let! it := p_specific_edges es in
      let! l := PRet (collect it) in
      PRet (Ok (Edges l :: out))
    | QInclude inner =>
      let! out1 := p_query inner out in
      let! (v, out2) := PRet (pop out1) in
      PRet (Ok (v :: out2))
    | QCount inner =>
      match inner with
      | QAllVertex => let! n := p_vertex_count in PRet (Ok (Count n :: out))
      | QAllEdge => let! n := p_edge_count in PRet (Ok (Count n :: out))
      | _ =>
        let! out1 := p_query inner out in
        let! (piped, out2) := PRet (pop out1) in
        let! n := match piped with
                  | Vertices l => PRet (Ok (lenN l))
                  | Edges l => PRet (Ok (lenN l))
                  | VertexProperties l => PRet (Ok (lenN l))
                  | EdgeProperties l => PRet (Ok (lenN l))
                  | Count _ => PRet (Err OperationOnQuery)
                  end in
        PRet (Ok (Count n :: re_export inner piped out2))
      end
    end.

  (** ** Batch builders (rdb/managers.rs) *)

  (** [for item in iter { f(item?)?; }], appending to one batch. *)
  Fixpoint p_each {A} (l : list (outcome A)) (f : A -> prog batch) : prog batch :=
    match l with
    | [] => PRet (Ok [])
    | x :: r => let! a := PRet x in let! b := f a in let! bs := p_each r f in PRet (Ok (b ++ bs))
    end.
  Definition p_over {A} (l : list A) (f : A -> prog batch) : prog batch := p_each (map Ok l) f.

  (** managers.rs 365-380 *)
  Definition p_vprop_delete (ix : oset ident) (id : uuid) (n : ident) : prog batch :=
    let! b := (if mem n ix then
                 let! o := rd (fun d => vprop_get H dec d id n) in
                 PRet (Ok (match o with Some v => [Del CFVV (vvalue_key H n v id)] | None => [] end))
               else PRet (Ok [])) in
    PRet (Ok (b ++ [Del CFVP (vprop_key H id n)])).
  (** managers.rs 343-363 *)
  Definition p_vprop_set (ix : oset ident) (id : uuid) (n : ident) (v : json) : prog batch :=
    let! b := (if mem n ix then p_vprop_delete ix id n else PRet (Ok [])) in
    PRet (Ok (b ++ [Put CFVP (vprop_key H id n) (enc v)]
                ++ (if mem n ix then [Put CFVV (vvalue_key H n v id) []] else []))).
  (** managers.rs 479-494 *)
  Definition p_eprop_delete (ix : oset ident) (e : edge) (n : ident) : prog batch :=
    let! b := (if mem n ix then
                 let! o := rd (fun d => eprop_get H dec d e n) in
                 PRet (Ok (match o with Some v => [Del CFEV (evalue_key H n v e)] | None => [] end))
               else PRet (Ok [])) in
    PRet (Ok (b ++ [Del CFEP (eprop_key H e n)])).
  (** managers.rs 457-477 *)
  Definition p_eprop_set (ix : oset ident) (e : edge) (n : ident) (v : json) : prog batch :=
    let! b := (if mem n ix then p_eprop_delete ix e n else PRet (Ok [])) in
    PRet (Ok (b ++ [Put CFEP (eprop_key H e n) (enc v)]
                ++ (if mem n ix then [Put CFEV (evalue_key H n v e) []] else []))).
  (** managers.rs 143-156 *)
  Definition p_edge_set (e : edge) : prog batch := rd (fun d => Ok (edge_set H d e)).
  (** managers.rs 158-177 *)
  Definition p_edge_delete (ix : oset ident) (e : edge) : prog batch :=
    let! l := rd (fun d => Ok (eprops_for_owner H dec d e)) in
    let! ps := p_each l (fun it => p_eprop_delete ix (fst (fst it)) (snd (fst it))) in
    PRet (Ok ([Del CFE (edge_key H e); Del CFR (edge_key H (reversed e))] ++ ps)).
  (** managers.rs 86-126: the three iterators are created one after the other;
      the edges they yield are deleted while iterating. *)
  Definition p_vertex_delete (ix : oset ident) (id : uuid) : prog batch :=
    let! l1 := rd (fun d => Ok (vprops_for_owner H dec d id)) in
    let! b1 := p_each l1 (fun it => p_vprop_delete ix (fst (fst it)) (snd (fst it))) in
    let! l2 := rd (fun d => Ok (edges_for_root H (d_edges d) id)) in
    let! b2 := p_each l2 (fun e => if eqb (eout e) id then p_edge_delete ix e else PRet Panic) in
    let! l3 := rd (fun d => Ok (edges_for_root H (d_reversed d) id)) in
    let! b3 := p_each l3 (fun e => if eqb (eout e) id then p_edge_delete ix e else PRet Panic) in
    PRet (Ok ([Del CFV (vertex_key H id)] ++ b1 ++ b2 ++ b3)).

  (** ** Writing methods of the transaction *)

  (** Build under the read guard, then write. *)
  Definition p_guarded (f : oset ident -> prog batch) : prog res :=
    PShared (fun ix => let! b := f ix in PWrite b (PRet (Ok RUnit))).

  (** 193-203 *)
  Definition p_delete_vertices (vs : list vertex) : prog res :=
    p_guarded (fun ix => p_over vs (fun v => p_vertex_delete ix (vid v))).
  (** 205-217 *)
  Definition p_delete_edges (es : list edge) : prog res :=
    p_guarded (fun ix => p_over es (fun e =>
      let! o := rd (fun d => vertex_get H d (eout e)) in
      match o with Some _ => p_edge_delete ix e | None => PRet (Ok []) end)).
  (** 219-243 *)
  Definition p_delete_vertex_properties (ps : list (uuid * ident)) : prog res :=
    p_guarded (fun ix => p_over ps (fun p => p_vprop_delete ix (fst p) (snd p))).
  Definition p_delete_edge_properties (ps : list (edge * ident)) : prog res :=
    p_guarded (fun ix => p_over ps (fun p => p_eprop_delete ix (fst p) (snd p))).
  (** 339-359 *)
  Definition p_set_vertex_properties (ids : list uuid) (n : ident) (v : json) : prog res :=
    p_guarded (fun ix => p_over ids (fun id => p_vprop_set ix id n v)).
  Definition p_set_edge_properties (es : list edge) (n : ident) (v : json) : prog res :=
    p_guarded (fun ix => p_over es (fun e => p_eprop_set ix e n v)).
  (** 282-307 *)
  Definition p_bulk_item (ix : oset ident) (it : bulk_item) : prog batch :=
    match it with
    | BVertex v => PRet (Ok (vertex_create H v))
    | BEdge e => p_edge_set e
    | BVProp id n v => p_vprop_set ix id n v
    | BEProp e n v => p_eprop_set ix e n v
    end.
  Definition p_bulk_insert (items : list bulk_item) : prog res :=
    p_guarded (fun ix => p_over items (p_bulk_item ix)).
  (** 258-267: no lock between the check and the write. *)
  Definition p_create_vertex (v : vertex) : prog bool :=
    let! b := rd (fun d => Ok (vertex_exists H d (vid v))) in
    if b then PRet (Ok false) else PWrite (vertex_create H v) (PRet (Ok true)).
  (** 269-278: [||] reads the second vertex only if the first exists. *)
  Definition p_create_edge (e : edge) : prog bool :=
    let! b1 := rd (fun d => Ok (vertex_exists H d (eout e))) in
    if negb b1 then PRet (Ok false) else
    let! b2 := rd (fun d => Ok (vertex_exists H d (ein e))) in
    if negb b2 then PRet (Ok false) else
    let! b := p_edge_set e in
    PWrite b (PRet (Ok true)).
  (** 309-337 *)
  Definition p_index_property (env : renv) (n : ident) : prog res :=
    PExcl (fun ix0 => if mem n ix0 then PRet (Ok RUnit) else
      let ix := add n ix0 in
      PSetIx ix (
        let! vs := rd (fun d => Ok (vertices_from H d nil_uuid)) in
        let! b1 := p_each vs (fun v =>
                     let! o := rd (fun d => vprop_get H dec d (vid v) n) in
                     PRet (Ok (match o with Some x => [Put CFVV (vvalue_key H n x (vid v)) []] | None => [] end))) in
        let! es := rd (fun d => Ok (edges_all d)) in
        let! b2 := p_each es (fun e =>
                     let! o := rd (fun d => eprop_get H dec d e n) in
                     PRet (Ok (match o with Some x => [Put CFEV (evalue_key H n x e) []] | None => [] end))) in
        PWrite ([Put CFM meta_key (bin_idents (iord env (keys ix)))] ++ b1 ++ b2) (PRet (Ok RUnit)))).

  (** database.rs 293-332 *)
  Definition p_delete (q : query) : prog res :=
    let! out := p_query q [] in
    let! (v, _) := PRet (pop out) in
    match v with
    | Vertices l => p_delete_vertices l
    | Edges l => p_delete_edges l
    | VertexProperties l => p_delete_vertex_properties
        (flat_map (fun vps => map (fun p => (vid (vp_vertex vps), np_name p)) (vp_props vps)) l)
    | EdgeProperties l => p_delete_edge_properties
        (flat_map (fun eps => map (fun p => (ep_edge eps, np_name p)) (ep_props eps)) l)
    | Count _ => PRet (Err OperationOnQuery)
    end.
  (** database.rs 340-358 *)
  Definition p_set_properties (q : query) (n : ident) (x : json) : prog res :=
    let! out := p_query q [] in
    let! (v, _) := PRet (pop out) in
    match v with
    | Vertices l => p_set_vertex_properties (map vid l) n x
    | Edges l => p_set_edge_properties l n x
    | _ => PRet (Err OperationOnQuery)
    end.

  (** A call. *)
  Definition prog_of (env : renv) (o : op) : prog res :=
    match o with
    | OCreateVertex v => pmap RBoolean (p_create_vertex v)
    | OCreateVertexFromType id t =>
      let! b := p_create_vertex (Vertex id t) in
      PRet (if b then Ok (RUuid id) else Err UuidTaken)
    | OCreateEdge e => pmap RBoolean (p_create_edge e)
    | OGet q => let! l := p_query q [] in PRet (Ok (ROut (rev l)))
    | ODelete q => p_delete q
    | OSetProperties q n v => p_set_properties q n v
    | OBulkInsert items => p_bulk_insert items
    | OIndexProperty n => p_index_property env n
    | OSync => PRet (if wok env then Ok RUnit else Err EDatastore)
    | TDeleteVertices vs => p_delete_vertices vs
    | TDeleteEdges es => p_delete_edges es
    | TDeleteVertexProperties ps => p_delete_vertex_properties ps
    | TDeleteEdgeProperties ps => p_delete_edge_properties ps
    | TSetVertexProperties ids n v => p_set_vertex_properties ids n v
    | TSetEdgeProperties es n v => p_set_edge_properties es n v
    end.
End Progs.

(** ** Running a program without interference *)

Fixpoint alone {A} (env : renv) (s : rstate) (p : prog A) : outcome A * rstate :=
  match p with
  | PRet x => (x, s)
  | PDb k => alone env s (k (r_db s))
  | PIx k => alone env s (k (r_indexed s))
  | PShared k => alone env s (k (r_indexed s))
  | PExcl k => alone env s (k (r_indexed s))
  | PSetIx ix k => alone env (RState (r_db s) ix (r_log s)) k
  | PWrite b k =>
    if wok env then alone env (RState (apply_batch b (r_db s)) (r_indexed s) (r_log s ++ [b])) k
    else (Err EDatastore, s)
  end.

(** ** Concurrent execution *)

Inductive guard := GNone | GShared | GExcl.

(** A thread is idle or running call [c] with environment [e]. *)
Inductive rthread := RIdle | Running (c : nat) (e : renv) (g : guard) (p : prog res).

Record rconfig := RConfig {
  rc_db : db;
  rc_ix : oset ident;
  rc_threads : nat -> rthread;
  rc_hist : list event;
  rc_next : nat }.

Definition holds (x : rthread) (g : guard) : Prop := exists c e p, x = Running c e g p.

Section RStep.
  Variable H : list byte -> N.
  Variable enc : json -> bytes.
  Variable dec : bytes -> option json.

  (** One step of one thread. *)
  Inductive rstep : rconfig -> rconfig -> Prop :=
  | RInvoke k t e o : rc_threads k t = RIdle ->
      rstep k (RConfig (rc_db k) (rc_ix k)
                       (upd (rc_threads k) t (Running (rc_next k) e GNone (prog_of H enc dec e o)))
                       (rc_hist k ++ [Inv (rc_next k) t o]) (S (rc_next k)))
  | RRead k t c e g f : rc_threads k t = Running c e g (PDb f) ->
      rstep k (RConfig (rc_db k) (rc_ix k) (upd (rc_threads k) t (Running c e g (f (rc_db k)))) (rc_hist k) (rc_next k))
  (** A read guard can be taken while nobody holds the write guard. *)
  | RIndexed k t c e g f : rc_threads k t = Running c e g (PIx f) ->
      (forall t', ~ holds (rc_threads k t') GExcl) ->
      rstep k (RConfig (rc_db k) (rc_ix k) (upd (rc_threads k) t (Running c e g (f (rc_ix k)))) (rc_hist k) (rc_next k))
  | RShared k t c e g f : rc_threads k t = Running c e g (PShared f) ->
      (forall t', ~ holds (rc_threads k t') GExcl) ->
      rstep k (RConfig (rc_db k) (rc_ix k) (upd (rc_threads k) t (Running c e GShared (f (rc_ix k)))) (rc_hist k) (rc_next k))
  (** The write guard can be taken while nobody holds any guard. *)
  | RExcl k t c e g f : rc_threads k t = Running c e g (PExcl f) ->
      (forall t', ~ holds (rc_threads k t') GExcl) -> (forall t', ~ holds (rc_threads k t') GShared) ->
      rstep k (RConfig (rc_db k) (rc_ix k) (upd (rc_threads k) t (Running c e GExcl (f (rc_ix k)))) (rc_hist k) (rc_next k))
  | RSetIx k t c e g ix p : rc_threads k t = Running c e g (PSetIx ix p) ->
      rstep k (RConfig (rc_db k) ix (upd (rc_threads k) t (Running c e g p)) (rc_hist k) (rc_next k))
  (** The batch is applied atomically, or the write fails. *)
  | RWrite k t c e g b p : rc_threads k t = Running c e g (PWrite b p) -> wok e = true ->
      rstep k (RConfig (apply_batch b (rc_db k)) (rc_ix k) (upd (rc_threads k) t (Running c e g p)) (rc_hist k) (rc_next k))
  | RFail k t c e g b p : rc_threads k t = Running c e g (PWrite b p) -> wok e = false ->
      rstep k (RConfig (rc_db k) (rc_ix k) (upd (rc_threads k) t (Running c e g (PRet (Err EDatastore)))) (rc_hist k) (rc_next k))
  (** Returning drops the guard. *)
  | RReturn k t c e g r : rc_threads k t = Running c e g (PRet r) ->
      rstep k (RConfig (rc_db k) (rc_ix k) (upd (rc_threads k) t RIdle) (rc_hist k ++ [Ret c r]) (rc_next k)).

  (** Starting from database state [s]. *)
  Definition rconfig0 (s : rstate) : rconfig := RConfig (r_db s) (r_indexed s) (fun _ => RIdle) [] 0.

  (** Every call in progress runs in an environment (failures of its writes,
      iteration order of the set of names) satisfying [E]. *)
  Definition envs (E : renv -> Prop) (k : rconfig) : Prop :=
    forall t c e g p, rc_threads k t = Running c e g p -> E e.

  (** The configurations reachable when every call's environment satisfies [E]. *)
  Inductive rreach (E : renv -> Prop) (s : rstate) : rconfig -> Prop :=
  | RReach0 : rreach E s (rconfig0 s)
  | RReachS k k' : rreach E s k -> rstep k k' -> envs E k' -> rreach E s k'.
End RStep.
