(** * lib/src/rdb/managers.rs and lib/src/rdb/datastore.rs. *)
From Verif Require Import Base OMap Json Types Util Db.

Set Implicit Arguments.

(** ** RocksDB: column families and write batches *)

(** A key or value of RocksDB. *)
Definition bytes := list byte.
(** A column family: keys in byte order (rdb/datastore.rs 12-21). *)
Definition cf := omap bytes bytes.

(** rdb/datastore.rs 12-21: the column families. *)
Inductive cfid := CFV | CFE | CFR | CFVP | CFEP | CFVV | CFEV | CFM.

(** rdb/datastore.rs 12-21: one field per column family. *)
Record db := DB {
  d_vertices : cf;
  d_edges : cf;
  d_reversed : cf;
  d_vprops : cf;
  d_eprops : cf;
  d_vvalues : cf;
  d_evalues : cf;
  d_meta : cf }.

(** A database just created (rdb/datastore.rs 374-398). *)
Definition db_empty : db := DB empty empty empty empty empty empty empty empty.

(** [db.cf_handle(name)] (rdb/managers.rs 35-40, 186-198, 298-303, 394-399, 508-513, 600-605, 696-701). *)
Definition cf_of (d : db) (c : cfid) : cf :=
  match c with
  | CFV => d_vertices d | CFE => d_edges d | CFR => d_reversed d | CFVP => d_vprops d
  | CFEP => d_eprops d | CFVV => d_vvalues d | CFEV => d_evalues d | CFM => d_meta d
  end.

(** The column family with new contents (same lines as [cf_of]). *)
Definition cf_set (d : db) (c : cfid) (x : cf) : db :=
  match c with
  | CFV => DB x (d_edges d) (d_reversed d) (d_vprops d) (d_eprops d) (d_vvalues d) (d_evalues d) (d_meta d)
  | CFE => DB (d_vertices d) x (d_reversed d) (d_vprops d) (d_eprops d) (d_vvalues d) (d_evalues d) (d_meta d)
  | CFR => DB (d_vertices d) (d_edges d) x (d_vprops d) (d_eprops d) (d_vvalues d) (d_evalues d) (d_meta d)
  | CFVP => DB (d_vertices d) (d_edges d) (d_reversed d) x (d_eprops d) (d_vvalues d) (d_evalues d) (d_meta d)
  | CFEP => DB (d_vertices d) (d_edges d) (d_reversed d) (d_vprops d) x (d_vvalues d) (d_evalues d) (d_meta d)
  | CFVV => DB (d_vertices d) (d_edges d) (d_reversed d) (d_vprops d) (d_eprops d) x (d_evalues d) (d_meta d)
  | CFEV => DB (d_vertices d) (d_edges d) (d_reversed d) (d_vprops d) (d_eprops d) (d_vvalues d) x (d_meta d)
  | CFM => DB (d_vertices d) (d_edges d) (d_reversed d) (d_vprops d) (d_eprops d) (d_vvalues d) (d_evalues d) x
  end.

(** [WriteBatch]: entries are applied in order, all together ([DB::write]). *)
Inductive wop := Put (c : cfid) (k v : bytes) | Del (c : cfid) (k : bytes).
Definition batch := list wop.

(** [WriteBatch::put_cf] and [delete_cf], once written (rdb/managers.rs 275-284, 566-586, 662-682). *)
Definition apply_wop (d : db) (w : wop) : db :=
  match w with
  | Put c k v => cf_set d c (set k v (cf_of d c))
  | Del c k => cf_set d c (del k (cf_of d c))
  end.
(** [DB::write] (rdb/datastore.rs 193-360). *)
Definition apply_batch (b : batch) (d : db) : db := fold_left apply_wop b d.

(** [slice::starts_with] *)
Fixpoint starts_with (p k : bytes) : bool :=
  match p, k with
  | [], _ => true
  | a :: p', b :: k' => eqb a b && starts_with p' k'
  | _ :: _, [] => false
  end.

(** rdb/managers.rs 19-27: [take_with_prefix] over [iterator_cf(From(start))]. *)
Definition scan_prefix (c : cf) (start prefix : bytes) : list (bytes * bytes) :=
  take_while (fun kv => starts_with prefix (fst kv)) (from start c).

(** [debug_assert!]: modelled as a panic in every build (proved unreachable). *)
Definition dassert {A} (b : bool) (k : outcome A) : outcome A := if b then k else Panic.

(** A loop [for item in iter { let x = item?; batch-building f(x)?; }]. *)
Fixpoint for_each {A} (l : list (outcome A)) (f : A -> outcome batch) : outcome batch :=
  match l with
  | [] => Ok []
  | x :: r => let? a := x in let? b := f a in let? bs := for_each r f in Ok (b ++ bs)
  end.

(** ** bincode of [HashSet<Identifier>] (managers.rs 703-714): a little-endian
    [u64] count, then each string as little-endian [u64] length and bytes; the
    set is written in its (arbitrary) iteration order. *)
Definition bin_str (s : bytes) : bytes := le64 (lenN s) ++ s.
Definition bin_idents (l : list ident) : bytes := le64 (lenN l) ++ flat_map (fun i => bin_str (ib i)) l.

(** bincode: a little-endian number (managers.rs 703-708). *)
Fixpoint le_value (l : bytes) : N :=
  match l with [] => 0%N | b :: r => (bN b + 256 * le_value r)%N end.

(** bincode: a string (managers.rs 703-708). *)
Definition unbin_str (l : bytes) : outcome (ident * bytes) :=
  match read_exact 8 l with
  | Ok (n, r) =>
    match read_exact (N.to_nat (le_value n)) r with
    | Ok (s, r') =>
      if utf8_valid s then match mk_ident s with Some i => Ok (i, r') | None => Panic end
      else Err EDatastore
    | _ => Err EDatastore
    end
  | _ => Err EDatastore
  end.

(** bincode: [n] strings (managers.rs 703-708). *)
Fixpoint unbin_n (n : nat) (l : bytes) : outcome (list ident) :=
  match n with
  | O => Ok []
  | S n' => let? (i, r) := unbin_str l in let? is := unbin_n n' r in Ok (i :: is)
  end.

(** Deserialising: each element takes at least eight bytes, so a count larger
    than the input must fail; the model checks this first to stay executable. *)
Definition unbin_idents (l : bytes) : outcome (oset ident) :=
  match read_exact 8 l with
  | Ok (n, r) =>
    if (lenN r <? le_value n)%N then Err EDatastore
    else let? is := unbin_n (N.to_nat (le_value n)) r in
         Ok (fold_left (fun m i => add i m) is empty)
  | _ => Err EDatastore
  end.

(** The metadata key, the string "indexed_properties" (managers.rs 704, 712). *)
Definition meta_key : bytes :=
  [x69;x6e;x64;x65;x78;x65;x64;x5f;x70;x72;x6f;x70;x65;x72;x74;x69;x65;x73].

(** Everything nondeterministic about one call: whether a [DB::write] succeeds
    and the iteration order of the set of indexed properties. *)
Record renv := REnv {
  wok : bool;
  iord : list ident -> list ident;
  iord_perm : forall l, Permutation l (iord l) }.
Definition ok_env : renv := REnv true (fun l => l) (fun l => Permutation_refl l).
Definition fail_env : renv := REnv false (fun l => l) (fun l => Permutation_refl l).

(** rdb/datastore.rs 364-367: the datastore: the database and the set of
    indexed properties kept in memory.  [r_log] is not in the code: it records
    the batches written since the database was opened, oldest first, to state
    what a crash leaves behind. *)
Record rstate := RState { r_db : db; r_indexed : oset ident; r_log : list batch }.
Definition rdb_empty : rstate := RState db_empty empty [].

Section Managers.
  Variable H : list byte -> N.
  (** [serde_json::to_vec] / [from_slice] on property values. *)
  Variable enc : json -> bytes.
  Variable dec : bytes -> option json.

  (** [serde_json::from_slice(..)?] (managers.rs 312-341, 410-455). *)
  Definition from_slice (b : bytes) : outcome json := of_opt EDatastore (dec b).

  (** *** Keys *)
  (** managers.rs 42-44 *)
  Definition vertex_key (id : uuid) : bytes := build H [CUuid id].
  (** managers.rs 200-206 *)
  Definition edge_key (e : edge) : bytes := build H [CUuid (eout e); CIdent (et e); CUuid (ein e)].
  (** managers.rs 305-310 *)
  Definition vprop_key (id : uuid) (n : ident) : bytes := build H [CUuid id; CStr (ib n)].
  (** managers.rs 401-408 *)
  Definition eprop_key (e : edge) (n : ident) : bytes :=
    build H [CUuid (eout e); CIdent (et e); CUuid (ein e); CStr (ib n)].
  (** managers.rs 515-521 *)
  Definition vvalue_key (n : ident) (v : json) (id : uuid) : bytes :=
    build H [CIdent n; CJson v; CUuid id].
  (** managers.rs 607-615 *)
  Definition evalue_key (n : ident) (v : json) (e : edge) : bytes :=
    build H [CIdent n; CJson v; CUuid (eout e); CIdent (et e); CUuid (ein e)].

  (** *** Decoders of iterator items *)
  (** managers.rs 65-77 *)
  Definition dec_vertex (kv : bytes * bytes) : outcome vertex :=
    dassert (Nat.eqb (length (fst kv)) 16)
      (let? (id, _) := read_uuid (fst kv) in
       let? (t, _) := read_identifier (snd kv) in
       Ok (Vertex id t)).
  (** managers.rs 212-219 *)
  Definition dec_edge (kv : bytes * bytes) : outcome edge :=
    let? (a, r) := read_uuid (fst kv) in
    let? (t, r) := read_identifier r in
    let? (b, _) := read_uuid r in
    Ok (Edge a t b).
  (** managers.rs 324-333 *)
  Definition dec_vprop (id : uuid) (kv : bytes * bytes) : outcome (uuid * ident * json) :=
    let? (owner, r) := read_uuid (fst kv) in
    dassert (eqb id owner)
      (let? n := read_name r in
       let? v := from_slice (snd kv) in
       Ok (owner, n, v)).
  (** managers.rs 426-445 *)
  Definition dec_eprop (e : edge) (kv : bytes * bytes) : outcome (edge * ident * json) :=
    let? (a, r) := read_uuid (fst kv) in
    dassert (eqb a (eout e))
      (let? (t, r) := read_identifier r in
       dassert (eqb t (et e))
         (let? (b, r) := read_uuid r in
          dassert (eqb b (ein e))
            (let? n := read_name r in
             let? v := from_slice (snd kv) in
             Ok (Edge a t b, n, v)))).
  (** managers.rs 530-537 (the hash part of the key is dropped: unused) *)
  Definition dec_vvalue (kv : bytes * bytes) : outcome uuid :=
    let? (_, r) := read_identifier (fst kv) in
    let? (_, r) := read_u64 r in
    let? (id, _) := read_uuid r in
    Ok id.
  (** managers.rs 624-633 *)
  Definition dec_evalue (kv : bytes * bytes) : outcome edge :=
    let? (_, r) := read_identifier (fst kv) in
    let? (_, r) := read_u64 r in
    let? (a, r) := read_uuid r in
    let? (t, r) := read_identifier r in
    let? (b, _) := read_uuid r in
    Ok (Edge a t b).

  Section Reads.
    Variable d : db.

    (** managers.rs 46-48 *)
    Definition vertex_exists (id : uuid) : bool := mem (vertex_key id) (d_vertices d).
    (** managers.rs 50-58 *)
    Definition vertex_get (id : uuid) : outcome (option ident) :=
      match get (vertex_key id) (d_vertices d) with
      | Some vb => let? (t, _) := read_identifier vb in Ok (Some t)
      | None => Ok None
      end.
    (** managers.rs 60-78 *)
    Definition vertices_from (id : uuid) : iter vertex :=
      map dec_vertex (from (vertex_key id) (d_vertices d)).
    (** managers.rs 222-224 *)
    Definition edge_contains (e : edge) : bool := mem (edge_key e) (d_edges d).
    (** managers.rs 226-251 with [t = None] (the only use). *)
    Definition edges_for_root (c : cf) (id : uuid) : iter edge :=
      map dec_edge (scan_prefix c (build H [CUuid id]) (build H [CUuid id])).
    (** managers.rs 253-268 *)
    Definition edges_from (c : cf) (e : edge) : iter edge := map dec_edge (from (edge_key e) c).
    (** managers.rs 270-273 *)
    Definition edges_all : iter edge := map dec_edge (elems (d_edges d)).
    (** managers.rs 312-334 *)
    Definition vprops_for_owner (id : uuid) : iter (uuid * ident * json) :=
      map (dec_vprop id) (scan_prefix (d_vprops d) (build H [CUuid id]) (build H [CUuid id])).
    (** managers.rs 336-341 *)
    Definition vprop_get (id : uuid) (n : ident) : outcome (option json) :=
      match get (vprop_key id n) (d_vprops d) with
      | Some vb => let? v := from_slice vb in Ok (Some v)
      | None => Ok None
      end.
    (** managers.rs 410-448 *)
    Definition eprops_for_owner (e : edge) : iter (edge * ident * json) :=
      map (dec_eprop e) (scan_prefix (d_eprops d) (edge_key e) (edge_key e)).
    (** managers.rs 450-455 *)
    Definition eprop_get (e : edge) (n : ident) : outcome (option json) :=
      match get (eprop_key e n) (d_eprops d) with
      | Some vb => let? v := from_slice vb in Ok (Some v)
      | None => Ok None
      end.
    (** managers.rs 540-549 *)
    Definition vvalues_for_name (n : ident) : iter uuid :=
      map dec_vvalue (scan_prefix (d_vvalues d) (build H [CIdent n]) (build H [CIdent n])).
    (** managers.rs 551-564 *)
    Definition vvalues_for_value (n : ident) (v : json) : iter uuid :=
      map dec_vvalue (scan_prefix (d_vvalues d) (build H [CIdent n; CJson v]) (build H [CIdent n; CJson v])).
    (** managers.rs 636-645 *)
    Definition evalues_for_name (n : ident) : iter edge :=
      map dec_evalue (scan_prefix (d_evalues d) (build H [CIdent n]) (build H [CIdent n])).
    (** managers.rs 647-660 *)
    Definition evalues_for_value (n : ident) (v : json) : iter edge :=
      map dec_evalue (scan_prefix (d_evalues d) (build H [CIdent n; CJson v]) (build H [CIdent n; CJson v])).

    (** *** Batch builders.  They read the database, never the batch. *)

    (** managers.rs 80-84 *)
    Definition vertex_create (v : vertex) : batch :=
      [Put CFV (vertex_key (vid v)) (build H [CIdent (vt v)])].
    (** managers.rs 365-380 *)
    Definition vprop_delete (ix : oset ident) (id : uuid) (n : ident) : outcome batch :=
      let? b := (if mem n ix then
                   let? o := vprop_get id n in
                   Ok (match o with Some v => [Del CFVV (vvalue_key n v id)] | None => [] end)
                 else Ok []) in
      Ok (b ++ [Del CFVP (vprop_key id n)]).
    (** managers.rs 343-363 *)
    Definition vprop_set (ix : oset ident) (id : uuid) (n : ident) (v : json) : outcome batch :=
      let? b := (if mem n ix then vprop_delete ix id n else Ok []) in
      Ok (b ++ [Put CFVP (vprop_key id n) (enc v)]
            ++ (if mem n ix then [Put CFVV (vvalue_key n v id) []] else [])).
    (** managers.rs 479-494 *)
    Definition eprop_delete (ix : oset ident) (e : edge) (n : ident) : outcome batch :=
      let? b := (if mem n ix then
                   let? o := eprop_get e n in
                   Ok (match o with Some v => [Del CFEV (evalue_key n v e)] | None => [] end)
                 else Ok []) in
      Ok (b ++ [Del CFEP (eprop_key e n)]).
    (** managers.rs 457-477 *)
    Definition eprop_set (ix : oset ident) (e : edge) (n : ident) (v : json) : outcome batch :=
      let? b := (if mem n ix then eprop_delete ix e n else Ok []) in
      Ok (b ++ [Put CFEP (eprop_key e n) (enc v)]
            ++ (if mem n ix then [Put CFEV (evalue_key n v e) []] else [])).
    (** managers.rs 143-156 *)
    Definition edge_set (e : edge) : batch :=
      (if edge_contains e then [Del CFE (edge_key e); Del CFR (edge_key (reversed e))] else [])
      ++ [Put CFE (edge_key e) []; Put CFR (edge_key (reversed e)) []].
    (** managers.rs 158-177 *)
    Definition edge_delete (ix : oset ident) (e : edge) : outcome batch :=
      let? ps := for_each (eprops_for_owner e) (fun it => eprop_delete ix (fst (fst it)) (snd (fst it))) in
      Ok ([Del CFE (edge_key e); Del CFR (edge_key (reversed e))] ++ ps).
    (** managers.rs 86-126.  Note lines 117-123: the edges read from the reversed
        table are passed to [edge_manager.delete] without being reversed back. *)
    Definition vertex_delete (ix : oset ident) (id : uuid) : outcome batch :=
      let? b1 := for_each (vprops_for_owner id) (fun it => vprop_delete ix (fst (fst it)) (snd (fst it))) in
      let? b2 := for_each (edges_for_root (d_edges d) id)
                   (fun e => dassert (eqb (eout e) id) (edge_delete ix e)) in
      let? b3 := for_each (edges_for_root (d_reversed d) id)
                   (fun e => dassert (eqb (eout e) id) (edge_delete ix e)) in
      Ok ([Del CFV (vertex_key id)] ++ b1 ++ b2 ++ b3).
  End Reads.

  (** *** The transaction (rdb/datastore.rs 53-360) *)
  Section Txn.
    Variable env : renv.

    (** [self.db.write(batch)?] *)
    Definition write (s : rstate) (b : batch) : outcome unit * rstate :=
      if wok env then (Ok tt, RState (apply_batch b (r_db s)) (r_indexed s) (r_log s ++ [b])) else (Err EDatastore, s).

    (** Build a batch with [?], then write it. *)
    Definition write_built (s : rstate) (b : outcome batch) : outcome unit * rstate :=
      match b with
      | Ok b => write s b
      | Err e => (Err e, s)
      | Panic => (Panic, s)
      end.

    (** Batches built by a loop over arguments ([for x in xs { f(x)? }]). *)
    Definition over {A} (l : list A) (f : A -> outcome batch) : outcome batch := for_each (map Ok l) f.

    (** 54-57 *)
    Definition rdb_vertex_count (s : rstate) : outcome N := Ok (lenN (vertices_from (r_db s) nil_uuid)).
    (** 59-62 *)
    Definition rdb_all_vertices (s : rstate) : outcome (iter vertex) := Ok (vertices_from (r_db s) nil_uuid).
    (** 64-67 *)
    Definition rdb_range_vertices (s : rstate) (id : uuid) : outcome (iter vertex) := Ok (vertices_from (r_db s) id).
    (** 69-77 *)
    Definition rdb_specific_vertices (s : rstate) (ids : list uuid) : outcome (iter vertex) :=
      Ok (filter_map (fun id => match vertex_get (r_db s) id with
                                | Ok (Some t) => Some (Ok (Vertex id t))
                                | Ok None => None
                                | Err e => Some (Err e)
                                | Panic => Some Panic
                                end) ids).
    (** 38-50 *)
    Definition existing_ids (s : rstate) (l : iter uuid) : iter uuid :=
      filter (fun r => match r with Ok id => vertex_exists (r_db s) id | _ => true end) l.
    (** 79-87 *)
    Definition rdb_vertex_ids_with_property (s : rstate) (n : ident) : outcome (option (iter uuid)) :=
      Ok (if mem n (r_indexed s) then Some (existing_ids s (vvalues_for_name (r_db s) n)) else None).
    (** 89-97 *)
    Definition rdb_vertex_ids_with_property_value (s : rstate) (n : ident) (v : json) : outcome (option (iter uuid)) :=
      Ok (if mem n (r_indexed s) then Some (existing_ids s (vvalues_for_value (r_db s) n v)) else None).
    (** 99-102 *)
    Definition rdb_edge_count (s : rstate) : outcome N := Ok (lenN (edges_all (r_db s))).
    (** 104-107 *)
    Definition rdb_all_edges (s : rstate) : outcome (iter edge) := Ok (edges_all (r_db s)).
    (** 109-114 *)
    Definition rdb_range_edges (s : rstate) (e : edge) : outcome (iter edge) := Ok (edges_from (d_edges (r_db s)) e).
    (** 116-121 *)
    Definition rdb_range_reversed_edges (s : rstate) (e : edge) : outcome (iter edge) :=
      Ok (edges_from (d_reversed (r_db s)) e).
    (** 123-133 *)
    Definition rdb_specific_edges (s : rstate) (es : list edge) : outcome (iter edge) :=
      Ok (map Ok (filter (edge_contains (r_db s)) es)).
    (** 135-148: no existence check *)
    Definition rdb_edges_with_property (s : rstate) (n : ident) : outcome (option (iter edge)) :=
      Ok (if mem n (r_indexed s) then Some (evalues_for_name (r_db s) n) else None).
    (** 150-163: no existence check *)
    Definition rdb_edges_with_property_value (s : rstate) (n : ident) (v : json) : outcome (option (iter edge)) :=
      Ok (if mem n (r_indexed s) then Some (evalues_for_value (r_db s) n v) else None).
    (** 165-170 *)
    Definition rdb_vertex_property (s : rstate) (v : vertex) (n : ident) : outcome (option json) :=
      vprop_get (r_db s) (vid v) n.
    (** 172-177 *)
    Definition rdb_all_vertex_properties (s : rstate) (v : vertex) : outcome (iter (ident * json)) :=
      let? l := collect (vprops_for_owner (r_db s) (vid v)) in
      Ok (map (fun x => Ok (snd (fst x), snd x)) l).
    (** 179-184 *)
    Definition rdb_edge_property (s : rstate) (e : edge) (n : ident) : outcome (option json) :=
      eprop_get (r_db s) e n.
    (** 186-191 *)
    Definition rdb_all_edge_properties (s : rstate) (e : edge) : outcome (iter (ident * json)) :=
      let? l := collect (eprops_for_owner (r_db s) e) in
      Ok (map (fun x => Ok (snd (fst x), snd x)) l).

    (** 193-203 *)
    Definition rdb_delete_vertices (s : rstate) (vs : list vertex) : outcome unit * rstate :=
      write_built s (over vs (fun v => vertex_delete (r_db s) (r_indexed s) (vid v))).
    (** 205-217: only edges whose outbound vertex exists are deleted. *)
    Definition rdb_delete_edges (s : rstate) (es : list edge) : outcome unit * rstate :=
      write_built s (over es (fun e =>
        let? o := vertex_get (r_db s) (eout e) in
        match o with Some _ => edge_delete (r_db s) (r_indexed s) e | None => Ok [] end)).
    (** 219-230 *)
    Definition rdb_delete_vertex_properties (s : rstate) (ps : list (uuid * ident)) : outcome unit * rstate :=
      write_built s (over ps (fun p => vprop_delete (r_db s) (r_indexed s) (fst p) (snd p))).
    (** 232-243 *)
    Definition rdb_delete_edge_properties (s : rstate) (ps : list (edge * ident)) : outcome unit * rstate :=
      write_built s (over ps (fun p => eprop_delete (r_db s) (r_indexed s) (fst p) (snd p))).
    (** 245-256: compaction and flush do not change contents; the flush may fail. *)
    Definition rdb_sync (s : rstate) : outcome unit * rstate :=
      (if wok env then Ok tt else Err EDatastore, s).
    (** 258-267 *)
    Definition rdb_create_vertex (s : rstate) (v : vertex) : outcome bool * rstate :=
      if vertex_exists (r_db s) (vid v) then (Ok false, s)
      else sbind (write s (vertex_create v)) (fun _ s' => (Ok true, s')).
    (** 269-278 *)
    Definition rdb_create_edge (s : rstate) (e : edge) : outcome bool * rstate :=
      if negb (vertex_exists (r_db s) (eout e)) || negb (vertex_exists (r_db s) (ein e)) then (Ok false, s)
      else sbind (write s (edge_set (r_db s) e)) (fun _ s' => (Ok true, s')).
    (** 286-303 *)
    Definition bulk_item_batch (s : rstate) (it : bulk_item) : outcome batch :=
      match it with
      | BVertex v => Ok (vertex_create v)
      | BEdge e => Ok (edge_set (r_db s) e)
      | BVProp id n v => vprop_set (r_db s) (r_indexed s) id n v
      | BEProp e n v => eprop_set (r_db s) (r_indexed s) e n v
      end.
    (** 282-307 *)
    Definition rdb_bulk_insert (s : rstate) (items : list bulk_item) : outcome unit * rstate :=
      write_built s (over items (bulk_item_batch s)).
    (** 309-337: the in-memory set is changed before the write, and stays
        changed when the write fails. *)
    Definition rdb_index_property (s : rstate) (n : ident) : outcome unit * rstate :=
      if mem n (r_indexed s) then (Ok tt, s)
      else
        let ix := add n (r_indexed s) in
        let s1 := RState (r_db s) ix (r_log s) in
        write_built s1
          (let? b1 := for_each (vertices_from (r_db s) nil_uuid) (fun v =>
                        let? o := vprop_get (r_db s) (vid v) n in
                        Ok (match o with Some x => [Put CFVV (vvalue_key n x (vid v)) []] | None => [] end)) in
           let? b2 := for_each (edges_all (r_db s)) (fun e =>
                        let? o := eprop_get (r_db s) e n in
                        Ok (match o with Some x => [Put CFEV (evalue_key n x e) []] | None => [] end)) in
           Ok ([Put CFM meta_key (bin_idents (iord env (keys ix)))] ++ b1 ++ b2)).
    (** 339-348 *)
    Definition rdb_set_vertex_properties (s : rstate) (ids : list uuid) (n : ident) (v : json) : outcome unit * rstate :=
      write_built s (over ids (fun id => vprop_set (r_db s) (r_indexed s) id n v)).
    (** 350-359 *)
    Definition rdb_set_edge_properties (s : rstate) (es : list edge) (n : ident) (v : json) : outcome unit * rstate :=
      write_built s (over es (fun e => eprop_set (r_db s) (r_indexed s) e n v)).

    (** rdb/datastore.rs 53-360: [impl Transaction for RocksdbTransaction]. *)
    Definition rdb_ops : txn_ops rstate := {|
      t_vertex_count := rdb_vertex_count;
      t_all_vertices := rdb_all_vertices;
      t_range_vertices := rdb_range_vertices;
      t_specific_vertices := rdb_specific_vertices;
      t_vertex_ids_with_property := rdb_vertex_ids_with_property;
      t_vertex_ids_with_property_value := rdb_vertex_ids_with_property_value;
      t_edge_count := rdb_edge_count;
      t_all_edges := rdb_all_edges;
      t_range_edges := rdb_range_edges;
      t_range_reversed_edges := rdb_range_reversed_edges;
      t_specific_edges := rdb_specific_edges;
      t_edges_with_property := rdb_edges_with_property;
      t_edges_with_property_value := rdb_edges_with_property_value;
      t_vertex_property := rdb_vertex_property;
      t_all_vertex_properties := rdb_all_vertex_properties;
      t_edge_property := rdb_edge_property;
      t_all_edge_properties := rdb_all_edge_properties;
      t_delete_vertices := rdb_delete_vertices;
      t_delete_edges := rdb_delete_edges;
      t_delete_vertex_properties := rdb_delete_vertex_properties;
      t_delete_edge_properties := rdb_delete_edge_properties;
      t_sync := rdb_sync;
      t_create_vertex := rdb_create_vertex;
      t_create_edge := rdb_create_edge;
      t_bulk_insert := rdb_bulk_insert;
      t_index_property := rdb_index_property;
      t_set_vertex_properties := rdb_set_vertex_properties;
      t_set_edge_properties := rdb_set_edge_properties |}.
  End Txn.

  (** rdb/datastore.rs 374-398 ([new_db] on an existing path): reload the set
      of indexed properties from the metadata (managers.rs 703-708). *)
  Definition rdb_open (d : db) : outcome rstate :=
    match get meta_key (d_meta d) with
    | Some vb => let? ix := unbin_idents vb in Ok (RState d ix [])
    | None => Ok (RState d empty [])
    end.

  (** One call on the datastore: [transaction] (rdb/datastore.rs 471-490), then the method. *)
  Definition rdb_step (s : rstate) (x : renv * op) : outcome res * rstate :=
    exec (rdb_ops (fst x)) s (snd x).

  (** The state after a history of calls on a fresh database. *)
  Definition rdb_run (h : list (renv * op)) : rstate :=
    fold_left (fun s x => snd (rdb_step s x)) h rdb_empty.
End Managers.
