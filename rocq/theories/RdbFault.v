(** * The RocksDB datastore when reads fail.

    Rdb.v models a database whose reads always succeed.  Here the same code is
    modelled over a database whose reads can fail: [get_cf] can return an
    error, and an iterator can yield an error instead of its next item.  The
    code is that of rdb/managers.rs and rdb/datastore.rs again, now with every
    [?] on a read result written out. *)
From Verif Require Import Base OMap Json Types Util Db Rdb.

Set Implicit Arguments.

(** What the storage engine does during one call.  Not in the code:
    - [fe_env]: as before, whether the write succeeds and the iteration order
      of the set of indexed properties;
    - [fe_get c k]: reading key [k] of column family [c] fails;
    - [fe_scan c k]: [Some i] if an iterator over column family [c] started at
      [k] yields an error after [i] items, [None] if it reaches the end.
    Simplification: within one call the same read always fares the same way. *)
Record fenv := FEnv { fe_env : renv; fe_get : cfid -> bytes -> bool; fe_scan : cfid -> bytes -> option nat }.

(** No read fails. *)
Definition calm (env : renv) : fenv := FEnv env (fun _ _ => false) (fun _ _ => None).

Definition kv := (bytes * bytes)%type.

(** [DB::get_cf]. *)
Definition f_get (fe : fenv) (d : db) (c : cfid) (k : bytes) : outcome (option bytes) :=
  if fe_get fe c k then Err EDatastore else Ok (get k (cf_of d c)).

(** rust-rocksdb's [DBIterator]: items, and on failure one error as last item. *)
Definition broken {A} (o : option nat) (l : list A) : iter A :=
  match o with
  | None => map Ok l
  | Some i => map Ok (firstn i l) ++ [Err EDatastore]
  end.

(** [iterator_cf(From(start, Forward))]. *)
Definition f_from (fe : fenv) (d : db) (c : cfid) (start : bytes) : iter kv :=
  broken (fe_scan fe c start) (from start (cf_of d c)).
(** [iterator_cf(Start)]; a scan from the start is identified with the one from the empty key. *)
Definition f_start (fe : fenv) (d : db) (c : cfid) : iter kv := broken (fe_scan fe c []) (elems (cf_of d c)).

(** managers.rs 19-27: errors pass [take_with_prefix]. *)
Definition f_scan (fe : fenv) (d : db) (c : cfid) (start prefix : bytes) : iter kv :=
  take_while (ok_or_true (fun x => starts_with prefix (fst x))) (f_from fe d c start).

(** [iter.map(|item| { let (k, v) = item?; .. })] *)
Definition decode {A} (f : kv -> outcome A) (l : iter kv) : iter A := map (fun r => let? x := r in f x) l.

Section Managers.
  Variable H : list byte -> N.
  Variable enc : json -> bytes.
  Variable dec : bytes -> option json.
  Variable fe : fenv.

  Section Reads.
    Variable d : db.

    (** managers.rs 46-48 *)
    Definition f_vertex_exists (id : uuid) : outcome bool :=
      let? o := f_get fe d CFV (vertex_key H id) in Ok (match o with Some _ => true | None => false end).
    (** managers.rs 50-58 *)
    Definition f_vertex_get (id : uuid) : outcome (option ident) :=
      let? o := f_get fe d CFV (vertex_key H id) in
      match o with
      | Some vb => let? (t, _) := read_identifier vb in Ok (Some t)
      | None => Ok None
      end.
    (** managers.rs 60-78 *)
    Definition f_vertices_from (id : uuid) : iter vertex := decode dec_vertex (f_from fe d CFV (vertex_key H id)).
    (** managers.rs 222-224 *)
    Definition f_edge_contains (e : edge) : outcome bool :=
      let? o := f_get fe d CFE (edge_key H e) in Ok (match o with Some _ => true | None => false end).
    (** managers.rs 226-251 with [t = None] (the only use). *)
    Definition f_edges_for_root (c : cfid) (id : uuid) : iter edge :=
      decode dec_edge (f_scan fe d c (build H [CUuid id]) (build H [CUuid id])).
    (** managers.rs 253-268 *)
    Definition f_edges_from (c : cfid) (e : edge) : iter edge := decode dec_edge (f_from fe d c (edge_key H e)).
    (** managers.rs 270-273 *)
    Definition f_edges_all : iter edge := decode dec_edge (f_start fe d CFE).
    (** managers.rs 312-334 *)
    Definition f_vprops_for_owner (id : uuid) : iter (uuid * ident * json) :=
      decode (dec_vprop dec id) (f_scan fe d CFVP (build H [CUuid id]) (build H [CUuid id])).
    (** managers.rs 336-341 *)
    Definition f_vprop_get (id : uuid) (n : ident) : outcome (option json) :=
      let? o := f_get fe d CFVP (vprop_key H id n) in
      match o with
      | Some vb => let? v := from_slice dec vb in Ok (Some v)
      | None => Ok None
      end.
    (** managers.rs 410-448 *)
    Definition f_eprops_for_owner (e : edge) : iter (edge * ident * json) :=
      decode (dec_eprop dec e) (f_scan fe d CFEP (edge_key H e) (edge_key H e)).
    (** managers.rs 450-455 *)
    Definition f_eprop_get (e : edge) (n : ident) : outcome (option json) :=
      let? o := f_get fe d CFEP (eprop_key H e n) in
      match o with
      | Some vb => let? v := from_slice dec vb in Ok (Some v)
      | None => Ok None
      end.
    (** managers.rs 540-564 *)
    Definition f_vvalues_for_name (n : ident) : iter uuid :=
      decode dec_vvalue (f_scan fe d CFVV (build H [CIdent n]) (build H [CIdent n])).
    Definition f_vvalues_for_value (n : ident) (v : json) : iter uuid :=
      decode dec_vvalue (f_scan fe d CFVV (build H [CIdent n; CJson v]) (build H [CIdent n; CJson v])).
    (** managers.rs 636-660 *)
    Definition f_evalues_for_name (n : ident) : iter edge :=
      decode dec_evalue (f_scan fe d CFEV (build H [CIdent n]) (build H [CIdent n])).
    Definition f_evalues_for_value (n : ident) (v : json) : iter edge :=
      decode dec_evalue (f_scan fe d CFEV (build H [CIdent n; CJson v]) (build H [CIdent n; CJson v])).

    (** managers.rs 365-380 *)
    Definition f_vprop_delete (ix : oset ident) (id : uuid) (n : ident) : outcome batch :=
      let? b := (if mem n ix then
                   let? o := f_vprop_get id n in
                   Ok (match o with Some v => [Del CFVV (vvalue_key H n v id)] | None => [] end)
                 else Ok []) in
      Ok (b ++ [Del CFVP (vprop_key H id n)]).
    (** managers.rs 343-363 *)
    Definition f_vprop_set (ix : oset ident) (id : uuid) (n : ident) (v : json) : outcome batch :=
      let? b := (if mem n ix then f_vprop_delete ix id n else Ok []) in
      Ok (b ++ [Put CFVP (vprop_key H id n) (enc v)]
            ++ (if mem n ix then [Put CFVV (vvalue_key H n v id) []] else [])).
    (** managers.rs 479-494 *)
    Definition f_eprop_delete (ix : oset ident) (e : edge) (n : ident) : outcome batch :=
      let? b := (if mem n ix then
                   let? o := f_eprop_get e n in
                   Ok (match o with Some v => [Del CFEV (evalue_key H n v e)] | None => [] end)
                 else Ok []) in
      Ok (b ++ [Del CFEP (eprop_key H e n)]).
    (** managers.rs 457-477 *)
    Definition f_eprop_set (ix : oset ident) (e : edge) (n : ident) (v : json) : outcome batch :=
      let? b := (if mem n ix then f_eprop_delete ix e n else Ok []) in
      Ok (b ++ [Put CFEP (eprop_key H e n) (enc v)]
            ++ (if mem n ix then [Put CFEV (evalue_key H n v e) []] else [])).
    (** managers.rs 143-156 *)
    Definition f_edge_set (e : edge) : outcome batch :=
      let? c := f_edge_contains e in
      Ok ((if c : bool then [Del CFE (edge_key H e); Del CFR (edge_key H (reversed e))] else [])
          ++ [Put CFE (edge_key H e) []; Put CFR (edge_key H (reversed e)) []]).
    (** managers.rs 158-177 *)
    Definition f_edge_delete (ix : oset ident) (e : edge) : outcome batch :=
      let? ps := for_each (f_eprops_for_owner e) (fun it => f_eprop_delete ix (fst (fst it)) (snd (fst it))) in
      Ok ([Del CFE (edge_key H e); Del CFR (edge_key H (reversed e))] ++ ps).
    (** managers.rs 86-126 *)
    Definition f_vertex_delete (ix : oset ident) (id : uuid) : outcome batch :=
      let? b1 := for_each (f_vprops_for_owner id) (fun it => f_vprop_delete ix (fst (fst it)) (snd (fst it))) in
      let? b2 := for_each (f_edges_for_root CFE id) (fun e => dassert (eqb (eout e) id) (f_edge_delete ix e)) in
      let? b3 := for_each (f_edges_for_root CFR id) (fun e => dassert (eqb (eout e) id) (f_edge_delete ix e)) in
      Ok ([Del CFV (vertex_key H id)] ++ b1 ++ b2 ++ b3).
  End Reads.

  (** *** The transaction (rdb/datastore.rs 36-360) *)

  (** 54-57: [count] counts items, whether they are vertices or errors. *)
  Definition f_vertex_count (s : rstate) : outcome N := Ok (lenN (f_vertices_from (r_db s) nil_uuid)).
  (** 59-62 *)
  Definition f_all_vertices (s : rstate) : outcome (iter vertex) := Ok (f_vertices_from (r_db s) nil_uuid).
  (** 64-67 *)
  Definition f_range_vertices (s : rstate) (id : uuid) : outcome (iter vertex) := Ok (f_vertices_from (r_db s) id).
  (** 69-77 *)
  Definition f_specific_vertices (s : rstate) (ids : list uuid) : outcome (iter vertex) :=
    Ok (filter_map (fun id => match f_vertex_get (r_db s) id with
                              | Ok (Some t) => Some (Ok (Vertex id t))
                              | Ok None => None
                              | Err e => Some (Err e)
                              | Panic => Some Panic
                              end) ids).
  (** 38-50 *)
  Definition f_existing_ids (s : rstate) (l : iter uuid) : iter uuid :=
    filter_map (fun r => match r with
                         | Ok id => match f_vertex_exists (r_db s) id with
                                    | Ok true => Some (Ok id)
                                    | Ok false => None
                                    | Err e => Some (Err e)
                                    | Panic => Some Panic
                                    end
                         | Err e => Some (Err e)
                         | Panic => Some Panic
                         end) l.
  (** 79-97 *)
  Definition f_vertex_ids_with_property (s : rstate) (n : ident) : outcome (option (iter uuid)) :=
    Ok (if mem n (r_indexed s) then Some (f_existing_ids s (f_vvalues_for_name (r_db s) n)) else None).
  Definition f_vertex_ids_with_property_value (s : rstate) (n : ident) (v : json) : outcome (option (iter uuid)) :=
    Ok (if mem n (r_indexed s) then Some (f_existing_ids s (f_vvalues_for_value (r_db s) n v)) else None).
  (** 99-102: as [vertex_count] *)
  Definition f_edge_count (s : rstate) : outcome N := Ok (lenN (f_edges_all (r_db s))).
  (** 104-121 *)
  Definition f_all_edges (s : rstate) : outcome (iter edge) := Ok (f_edges_all (r_db s)).
  Definition f_range_edges (s : rstate) (e : edge) : outcome (iter edge) := Ok (f_edges_from (r_db s) CFE e).
  Definition f_range_reversed_edges (s : rstate) (e : edge) : outcome (iter edge) := Ok (f_edges_from (r_db s) CFR e).
  (** 123-133 *)
  Definition f_specific_edges (s : rstate) (es : list edge) : outcome (iter edge) :=
    Ok (filter_map (fun e => match f_edge_contains (r_db s) e with
                             | Ok true => Some (Ok e)
                             | Ok false => None
                             | Err e => Some (Err e)
                             | Panic => Some Panic
                             end) es).
  (** 135-163 *)
  Definition f_edges_with_property (s : rstate) (n : ident) : outcome (option (iter edge)) :=
    Ok (if mem n (r_indexed s) then Some (f_evalues_for_name (r_db s) n) else None).
  Definition f_edges_with_property_value (s : rstate) (n : ident) (v : json) : outcome (option (iter edge)) :=
    Ok (if mem n (r_indexed s) then Some (f_evalues_for_value (r_db s) n v) else None).
  (** 165-191 *)
  Definition f_vertex_property (s : rstate) (v : vertex) (n : ident) : outcome (option json) :=
    f_vprop_get (r_db s) (vid v) n.
  Definition f_all_vertex_properties (s : rstate) (v : vertex) : outcome (iter (ident * json)) :=
    let? l := collect (f_vprops_for_owner (r_db s) (vid v)) in
    Ok (map (fun x => Ok (snd (fst x), snd x)) l).
  Definition f_edge_property (s : rstate) (e : edge) (n : ident) : outcome (option json) :=
    f_eprop_get (r_db s) e n.
  Definition f_all_edge_properties (s : rstate) (e : edge) : outcome (iter (ident * json)) :=
    let? l := collect (f_eprops_for_owner (r_db s) e) in
    Ok (map (fun x => Ok (snd (fst x), snd x)) l).
  (** 193-217 *)
  Definition f_delete_vertices (s : rstate) (vs : list vertex) : outcome unit * rstate :=
    write_built (fe_env fe) s (over vs (fun v => f_vertex_delete (r_db s) (r_indexed s) (vid v))).
  Definition f_delete_edges (s : rstate) (es : list edge) : outcome unit * rstate :=
    write_built (fe_env fe) s (over es (fun e =>
      let? o := f_vertex_get (r_db s) (eout e) in
      match o with Some _ => f_edge_delete (r_db s) (r_indexed s) e | None => Ok [] end)).
  (** 219-243 *)
  Definition f_delete_vertex_properties (s : rstate) (ps : list (uuid * ident)) : outcome unit * rstate :=
    write_built (fe_env fe) s (over ps (fun p => f_vprop_delete (r_db s) (r_indexed s) (fst p) (snd p))).
  Definition f_delete_edge_properties (s : rstate) (ps : list (edge * ident)) : outcome unit * rstate :=
    write_built (fe_env fe) s (over ps (fun p => f_eprop_delete (r_db s) (r_indexed s) (fst p) (snd p))).
  (** 258-267 *)
  Definition f_create_vertex (s : rstate) (v : vertex) : outcome bool * rstate :=
    match f_vertex_exists (r_db s) (vid v) with
    | Ok true => (Ok false, s)
    | Ok false => sbind (write (fe_env fe) s (vertex_create H v)) (fun _ s' => (Ok true, s'))
    | Err e => (Err e, s)
    | Panic => (Panic, s)
    end.
  (** 269-278: [||] does not look for the second vertex if the first is missing. *)
  Definition f_create_edge (s : rstate) (e : edge) : outcome bool * rstate :=
    match (let? a := f_vertex_exists (r_db s) (eout e) in
           if negb a then Ok true else let? b := f_vertex_exists (r_db s) (ein e) in Ok (negb b)) with
    | Ok true => (Ok false, s)
    | Ok false =>
      match f_edge_set (r_db s) e with
      | Ok b => sbind (write (fe_env fe) s b) (fun _ s' => (Ok true, s'))
      | Err e => (Err e, s)
      | Panic => (Panic, s)
      end
    | Err e => (Err e, s)
    | Panic => (Panic, s)
    end.
  (** 282-307 *)
  Definition f_bulk_item (s : rstate) (it : bulk_item) : outcome batch :=
    match it with
    | BVertex v => Ok (vertex_create H v)
    | BEdge e => f_edge_set (r_db s) e
    | BVProp id n v => f_vprop_set (r_db s) (r_indexed s) id n v
    | BEProp e n v => f_eprop_set (r_db s) (r_indexed s) e n v
    end.
  Definition f_bulk_insert (s : rstate) (items : list bulk_item) : outcome unit * rstate :=
    write_built (fe_env fe) s (over items (f_bulk_item s)).
  (** 309-337 *)
  Definition f_index_property (s : rstate) (n : ident) : outcome unit * rstate :=
    if mem n (r_indexed s) then (Ok tt, s)
    else
      let ix := add n (r_indexed s) in
      let s1 := RState (r_db s) ix (r_log s) in
      write_built (fe_env fe) s1
        (let? b1 := for_each (f_vertices_from (r_db s) nil_uuid) (fun v =>
                      let? o := f_vprop_get (r_db s) (vid v) n in
                      Ok (match o with Some x => [Put CFVV (vvalue_key H n x (vid v)) []] | None => [] end)) in
         let? b2 := for_each (f_edges_all (r_db s)) (fun e =>
                      let? o := f_eprop_get (r_db s) e n in
                      Ok (match o with Some x => [Put CFEV (evalue_key H n x e) []] | None => [] end)) in
         Ok ([Put CFM meta_key (bin_idents (iord (fe_env fe) (keys ix)))] ++ b1 ++ b2)).
  (** 339-359 *)
  Definition f_set_vertex_properties (s : rstate) (ids : list uuid) (n : ident) (v : json) : outcome unit * rstate :=
    write_built (fe_env fe) s (over ids (fun id => f_vprop_set (r_db s) (r_indexed s) id n v)).
  Definition f_set_edge_properties (s : rstate) (es : list edge) (n : ident) (v : json) : outcome unit * rstate :=
    write_built (fe_env fe) s (over es (fun e => f_eprop_set (r_db s) (r_indexed s) e n v)).

  (** The query interpreter and the [Database] calls are the generic ones (Db.v). *)
  Definition f_ops : txn_ops rstate := {|
    t_vertex_count := f_vertex_count;
    t_all_vertices := f_all_vertices;
    t_range_vertices := f_range_vertices;
    t_specific_vertices := f_specific_vertices;
    t_vertex_ids_with_property := f_vertex_ids_with_property;
    t_vertex_ids_with_property_value := f_vertex_ids_with_property_value;
    t_edge_count := f_edge_count;
    t_all_edges := f_all_edges;
    t_range_edges := f_range_edges;
    t_range_reversed_edges := f_range_reversed_edges;
    t_specific_edges := f_specific_edges;
    t_edges_with_property := f_edges_with_property;
    t_edges_with_property_value := f_edges_with_property_value;
    t_vertex_property := f_vertex_property;
    t_all_vertex_properties := f_all_vertex_properties;
    t_edge_property := f_edge_property;
    t_all_edge_properties := f_all_edge_properties;
    t_delete_vertices := f_delete_vertices;
    t_delete_edges := f_delete_edges;
    t_delete_vertex_properties := f_delete_vertex_properties;
    t_delete_edge_properties := f_delete_edge_properties;
    t_sync := rdb_sync (fe_env fe);
    t_create_vertex := f_create_vertex;
    t_create_edge := f_create_edge;
    t_bulk_insert := f_bulk_insert;
    t_index_property := f_index_property;
    t_set_vertex_properties := f_set_vertex_properties;
    t_set_edge_properties := f_set_edge_properties |}.

  (** rdb/datastore.rs 374-398 and managers.rs 703-708: opening reads the
      metadata with [?]. *)
  Definition f_open (d : db) : outcome rstate :=
    let? o := f_get fe d CFM meta_key in
    match o with
    | Some vb => let? ix := unbin_idents vb in Ok (RState d ix [])
    | None => Ok (RState d empty [])
    end.
End Managers.

(** A call while reads may fail. *)
Definition f_step (H : list byte -> N) (enc : json -> bytes) (dec : bytes -> option json)
  (s : rstate) (x : fenv * op) : outcome res * rstate := exec (f_ops H enc dec (fst x)) s (snd x).
Definition f_run H enc dec (h : list (fenv * op)) : rstate :=
  fold_left (fun s x => snd (f_step H enc dec s x)) h rdb_empty.
