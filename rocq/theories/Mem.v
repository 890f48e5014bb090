(** * lib/src/memory/datastore.rs: the in-memory datastore. *)
From Verif Require Import Base OMap Json Types Util Db.

Set Implicit Arguments.

(** memory/datastore.rs 18-21: [IndexedPropertyMember]. *)
Inductive member := MVertex (id : uuid) | MEdge (e : edge).

(** memory/datastore.rs 17-21: [Eq] of [IndexedPropertyMember], made an order (see below). *)
Definition member_cmp (a b : member) : comparison :=
  match a, b with
  | MVertex x, MVertex y => cmp x y
  | MVertex _, MEdge _ => Lt
  | MEdge _, MVertex _ => Gt
  | MEdge x, MEdge y => cmp x y
  end.
Lemma member_cmp_eq a b : member_cmp a b = Eq <-> a = b.
Proof.
  destruct a, b; cbn -[cmp]; try (split; discriminate); rewrite cmp_eq; split; congruence.
Qed.
Lemma member_cmp_antisym a b : member_cmp b a = CompOpp (member_cmp a b).
Proof. destruct a, b; cbn -[cmp]; auto; apply cmp_antisym. Qed.
Lemma member_cmp_trans a b c : member_cmp a b = Lt -> member_cmp b c = Lt -> member_cmp a c = Lt.
Proof. destruct a, b, c; cbn -[cmp]; try congruence; apply cmp_lt_trans. Qed.
(** Only used to have a canonical representation of [HashSet<Member>]; no
    behaviour depends on this order (iteration order is an oracle). *)
#[global] Instance Ord_member : Ord member :=
  {| cmp := member_cmp; cmp_eq := member_cmp_eq; cmp_antisym := member_cmp_antisym;
     cmp_lt_trans := member_cmp_trans |}.

(** [HashMap<Json, HashSet<Member>>] (memory/datastore.rs 34): an association
    list searched with [key_eq]. *)
Definition container := list (json * oset member).

(** [HashMap::get] (memory/datastore.rs 91-106, 151-166). *)
Fixpoint c_get (v : json) (c : container) : option (oset member) :=
  match c with
  | [] => None
  | (k, ms) :: r => if key_eq k v then Some ms else c_get v r
  end.

(** [entry(v).or_default()] then an in-place update by [f]: an existing entry
    keeps its stored key. *)
Fixpoint c_update (v : json) (f : oset member -> oset member) (c : container) : container :=
  match c with
  | [] => [(v, f empty)]
  | (k, ms) :: r => if key_eq k v then (k, f ms) :: r else (k, ms) :: c_update v f r
  end.

(** memory/datastore.rs 27-35: [InternalMemory]. *)
Record memory := Memory {
  m_vertices : omap uuid ident;
  m_edges : oset edge;
  m_reversed : oset edge;
  m_vprops : omap (uuid * ident) json;
  m_eprops : omap (edge * ident) json;
  m_index : omap ident container }.

(** memory/datastore.rs 27: [InternalMemory::default()]. *)
Definition mem_empty : memory := Memory empty empty empty empty empty empty.

(** The iteration order of [HashSet]s during one call: arbitrary. *)
Record order := Order {
  ord_v : list uuid -> list uuid;
  ord_e : list edge -> list edge;
  ord_v_perm : forall l, Permutation l (ord_v l);
  ord_e_perm : forall l, Permutation l (ord_e l) }.
Definition id_order : order :=
  Order (fun l => l) (fun l => l) (fun l => Permutation_refl l) (fun l => Permutation_refl l).

(** memory/datastore.rs 77-84: the pattern [IndexedPropertyMember::Vertex(id)]. *)
Definition member_vertex (m : member) : option uuid := match m with MVertex u => Some u | _ => None end.
(** memory/datastore.rs 137-144: the pattern [IndexedPropertyMember::Edge(edge)]. *)
Definition member_edge (m : member) : option edge := match m with MEdge e => Some e | _ => None end.

(** Collecting into a [HashSet] (memory/datastore.rs 77-84, 137-144), before
    the iteration order is chosen. *)
Definition to_set {A} {O : Ord A} (l : list A) : list A := keys (fold_left (fun m x => add x m) l empty).

Section Memory.
  (** [true]: debug assertions enabled ([cfg(debug_assertions)]). *)
  Variable dbg : bool.
  Variable ord : order.

  (** memory/datastore.rs 43-45 *)
  Definition mem_vertex_count (m : memory) : outcome N := Ok (size (m_vertices m)).
  (** memory/datastore.rs 47-54 *)
  Definition mem_all_vertices (m : memory) : outcome (iter vertex) :=
    Ok (map (fun kv => Ok (Vertex (fst kv) (snd kv))) (elems (m_vertices m))).
  (** memory/datastore.rs 56-63 *)
  Definition mem_range_vertices (m : memory) (offset : uuid) : outcome (iter vertex) :=
    Ok (map (fun kv => Ok (Vertex (fst kv) (snd kv))) (from offset (m_vertices m))).
  (** memory/datastore.rs 65-73 *)
  Definition mem_specific_vertices (m : memory) (ids : list uuid) : outcome (iter vertex) :=
    Ok (filter_map (fun id => option_map (fun t => Ok (Vertex id t)) (get id (m_vertices m))) ids).

  (** memory/datastore.rs 75-89 *)
  Definition mem_vertex_ids_with_property (m : memory) (n : ident) : outcome (option (iter uuid)) :=
    Ok (option_map (fun c => map Ok (ord_v ord (to_set (flat_map (fun kv => filter_map member_vertex (keys (snd kv))) c))))
                   (get n (m_index m))).
  (** memory/datastore.rs 91-106 *)
  Definition mem_vertex_ids_with_property_value (m : memory) (n : ident) (v : json)
    : outcome (option (iter uuid)) :=
    Ok (option_map (fun c => match c_get v c with
                             | Some ms => map Ok (ord_v ord (filter_map member_vertex (keys ms)))
                             | None => []
                             end)
                   (get n (m_index m))).
  (** memory/datastore.rs 108-110 *)
  Definition mem_edge_count (m : memory) : outcome N := Ok (size (m_edges m)).
  (** memory/datastore.rs 112-115 *)
  Definition mem_all_edges (m : memory) : outcome (iter edge) := Ok (map Ok (keys (m_edges m))).
  (** memory/datastore.rs 117-120 *)
  Definition mem_range_edges (m : memory) (offset : edge) : outcome (iter edge) :=
    Ok (map (fun kv => Ok (fst kv)) (from offset (m_edges m))).
  (** memory/datastore.rs 122-125 *)
  Definition mem_range_reversed_edges (m : memory) (offset : edge) : outcome (iter edge) :=
    Ok (map (fun kv => Ok (fst kv)) (from offset (m_reversed m))).
  (** memory/datastore.rs 127-133 *)
  Definition mem_specific_edges (m : memory) (es : list edge) : outcome (iter edge) :=
    Ok (map Ok (filter (fun e => mem e (m_edges m)) es)).
  (** memory/datastore.rs 135-149: no existence check. *)
  Definition mem_edges_with_property (m : memory) (n : ident) : outcome (option (iter edge)) :=
    Ok (option_map (fun c => map Ok (ord_e ord (to_set (flat_map (fun kv => filter_map member_edge (keys (snd kv))) c))))
                   (get n (m_index m))).
  (** memory/datastore.rs 151-166: only edges that exist. *)
  Definition mem_edges_with_property_value (m : memory) (n : ident) (v : json)
    : outcome (option (iter edge)) :=
    Ok (option_map (fun c => match c_get v c with
                             | Some ms => map Ok (ord_e ord (filter (fun e => mem e (m_edges m))
                                                                    (filter_map member_edge (keys ms))))
                             | None => []
                             end)
                   (get n (m_index m))).
  (** memory/datastore.rs 168-174 *)
  Definition mem_vertex_property (m : memory) (v : vertex) (n : ident) : outcome (option json) :=
    Ok (get (vid v, n) (m_vprops m)).
  (** memory/datastore.rs 176-184: [next_uuid(..).unwrap()] panics for the
      largest UUID. *)
  Definition mem_all_vertex_properties (m : memory) (v : vertex) : outcome (iter (ident * json)) :=
    match next_uuid (vid v) with
    | Ok next =>
      Ok (map (fun kv => Ok (snd (fst kv), snd kv))
              (take_while (fun kv => ltb (fst kv) (next, empty_ident))
                          (from (vid v, empty_ident) (m_vprops m))))
    | _ => Panic
    end.
  (** memory/datastore.rs 186-192 *)
  Definition mem_edge_property (m : memory) (e : edge) (n : ident) : outcome (option json) :=
    Ok (get (e, n) (m_eprops m)).
  (** memory/datastore.rs 194-204 *)
  Definition mem_all_edge_properties (m : memory) (e : edge) : outcome (iter (ident * json)) :=
    Ok (map (fun kv => Ok (snd (fst kv), snd kv))
            (take_while (fun kv => eqb (fst (fst kv)) e) (from (e, empty_ident) (m_eprops m)))).

  (** Assignments to one field of [InternalMemory] (memory/datastore.rs 27-35). *)
  Definition with_vertices (m : memory) x := Memory x (m_edges m) (m_reversed m) (m_vprops m) (m_eprops m) (m_index m).
  Definition with_edges (m : memory) x y := Memory (m_vertices m) x y (m_vprops m) (m_eprops m) (m_index m).
  Definition with_vprops (m : memory) x := Memory (m_vertices m) (m_edges m) (m_reversed m) x (m_eprops m) (m_index m).
  Definition with_eprops (m : memory) x := Memory (m_vertices m) (m_edges m) (m_reversed m) (m_vprops m) x (m_index m).
  Definition with_index (m : memory) x := Memory (m_vertices m) (m_edges m) (m_reversed m) (m_vprops m) (m_eprops m) x.

  (** memory/datastore.rs 265-270 and 280-285:
      [if let Some(c) = property_values.get_mut(name) {
         debug_assert!(c.get_mut(value).unwrap().remove(member)) }].
      The whole argument of [debug_assert!] is compiled out in release builds,
      so nothing is removed there. *)
  Definition unindex (m : memory) (n : ident) (v : json) (mb : member) : outcome unit * memory :=
    match get n (m_index m) with
    | None => (Ok tt, m)
    | Some c =>
      if dbg then
        match c_get v c with
        | None => (Panic, m)
        | Some ms =>
          let m' := with_index m (set n (c_update v (del mb) c) (m_index m)) in
          if mem mb ms then (Ok tt, m') else (Panic, m')
        end
      else (Ok tt, m)
    end.

  (** memory/datastore.rs 261-274 *)
  Fixpoint mem_delete_vertex_properties (m : memory) (props : list (uuid * ident)) : outcome unit * memory :=
    match props with
    | [] => (Ok tt, m)
    | p :: r =>
      match get p (m_vprops m) with
      | None => mem_delete_vertex_properties m r
      | Some v =>
        let m1 := with_vprops m (del p (m_vprops m)) in
        sbind (unindex m1 (snd p) v (MVertex (fst p))) (fun _ m2 => mem_delete_vertex_properties m2 r)
      end
    end.

  (** memory/datastore.rs 276-289 *)
  Fixpoint mem_delete_edge_properties (m : memory) (props : list (edge * ident)) : outcome unit * memory :=
    match props with
    | [] => (Ok tt, m)
    | p :: r =>
      match get p (m_eprops m) with
      | None => mem_delete_edge_properties m r
      | Some v =>
        let m1 := with_eprops m (del p (m_eprops m)) in
        sbind (unindex m1 (snd p) v (MEdge (fst p))) (fun _ m2 => mem_delete_edge_properties m2 r)
      end
    end.

  (** memory/datastore.rs 237-259 *)
  Fixpoint mem_delete_edges (m : memory) (es : list edge) : outcome unit * memory :=
    match es with
    | [] => (Ok tt, m)
    | e :: r =>
      let m1 := with_edges m (del e (m_edges m)) (del (reversed e) (m_reversed m)) in
      let ps := map fst (take_while (fun kv => eqb (fst (fst kv)) e) (from (e, empty_ident) (m_eprops m1))) in
      sbind (mem_delete_edge_properties m1 ps) (fun _ m2 => mem_delete_edges m2 r)
    end.

  (** memory/datastore.rs 206-235 *)
  Fixpoint mem_delete_vertices (m : memory) (vs : list vertex) : outcome unit * memory :=
    match vs with
    | [] => (Ok tt, m)
    | v :: r =>
      let m1 := with_vertices m (del (vid v) (m_vertices m)) in
      let ps := map fst (take_while (fun kv => eqb (fst (fst kv)) (vid v))
                                    (from (vid v, empty_ident) (m_vprops m1))) in
      sbind (mem_delete_vertex_properties m1 ps) (fun _ m2 =>
        let es := filter (fun e => eqb (eout e) (vid v) || eqb (ein e) (vid v)) (keys (m_edges m2)) in
        sbind (mem_delete_edges m2 es) (fun _ m3 => mem_delete_vertices m3 r))
    end.

  (** memory/datastore.rs 305-314 *)
  Definition mem_create_vertex (m : memory) (v : vertex) : outcome bool * memory :=
    match get (vid v) (m_vertices m) with
    | Some _ => (Ok false, m)
    | None => (Ok true, with_vertices m (set (vid v) (vt v) (m_vertices m)))
    end.

  (** memory/datastore.rs 316-326 *)
  Definition mem_create_edge (m : memory) (e : edge) : outcome bool * memory :=
    if negb (mem (eout e) (m_vertices m)) || negb (mem (ein e) (m_vertices m)) then (Ok false, m)
    else (Ok true, with_edges m (add e (m_edges m)) (add (reversed e) (m_reversed m))).

  (** memory/datastore.rs 329-345: the fresh container built by [index_property]. *)
  Definition index_fresh (m : memory) (n : ident) : container :=
    let c1 := fold_left (fun c id => match get (id, n) (m_vprops m) with
                                     | Some v => c_update v (add (MVertex id)) c
                                     | None => c
                                     end) (keys (m_vertices m)) [] in
    fold_left (fun c e => match get (e, n) (m_eprops m) with
                          | Some v => c_update v (add (MEdge e)) c
                          | None => c
                          end) (keys (m_edges m)) c1.

  (** memory/datastore.rs 348-353: merging the fresh container. *)
  Definition merge_container (old fresh : container) : container :=
    fold_left (fun c kv => c_update (fst kv) (fun ms => fold_left (fun s x => add x s) (keys (snd kv)) ms) c)
              fresh old.

  (** memory/datastore.rs 328-356 *)
  Definition mem_index_property (m : memory) (n : ident) : outcome unit * memory :=
    let old := match get n (m_index m) with Some c => c | None => [] end in
    (Ok tt, with_index m (set n (merge_container old (index_fresh m n)) (m_index m))).

  (** memory/datastore.rs 371-376, 394-399: [entry(value).or_insert_with(HashSet::new)]
      and inserting the members. *)
  Definition index_members (m : memory) (n : ident) (v : json) (mbs : list member) : memory :=
    match get n (m_index m) with
    | None => m
    | Some c =>
      with_index m (set n (c_update v (fun ms => fold_left (fun s x => add x s) mbs ms) c) (m_index m))
    end.

  (** memory/datastore.rs 358-379 *)
  Definition mem_set_vertex_properties (m : memory) (ids : list uuid) (n : ident) (v : json)
    : outcome unit * memory :=
    sbind (mem_delete_vertex_properties m (map (fun id => (id, n)) ids)) (fun _ m1 =>
      let m2 := with_vprops m1 (fold_left (fun ps id => set (id, n) v ps) ids (m_vprops m1)) in
      (Ok tt, index_members m2 n v (map MVertex ids))).

  (** memory/datastore.rs 381-402 *)
  Definition mem_set_edge_properties (m : memory) (es : list edge) (n : ident) (v : json)
    : outcome unit * memory :=
    sbind (mem_delete_edge_properties m (map (fun e => (e, n)) es)) (fun _ m1 =>
      let m2 := with_eprops m1 (fold_left (fun ps e => set (e, n) v ps) es (m_eprops m1)) in
      (Ok tt, index_members m2 n v (map MEdge es))).

  (** The datastore without a persistence path ([new_db], 414-419): [sync]
      (291-303) returns [Ok(())].  Syncing to a file is modelled in Persist.v. *)
  Definition mem_sync (m : memory) : outcome unit * memory := (Ok tt, m).

  (** [bulk_insert] is the trait's default (the impl does not override it). *)
  Definition mem_bulk_insert (m : memory) (items : list bulk_item) : outcome unit * memory :=
    default_bulk_insert mem_create_vertex mem_create_edge mem_set_vertex_properties
                        mem_set_edge_properties m items.

  (** memory/datastore.rs 42-403: [impl Transaction for MemoryTransaction]. *)
  Definition mem_ops : txn_ops memory := {|
    t_vertex_count := mem_vertex_count;
    t_all_vertices := mem_all_vertices;
    t_range_vertices := mem_range_vertices;
    t_specific_vertices := mem_specific_vertices;
    t_vertex_ids_with_property := mem_vertex_ids_with_property;
    t_vertex_ids_with_property_value := mem_vertex_ids_with_property_value;
    t_edge_count := mem_edge_count;
    t_all_edges := mem_all_edges;
    t_range_edges := mem_range_edges;
    t_range_reversed_edges := mem_range_reversed_edges;
    t_specific_edges := mem_specific_edges;
    t_edges_with_property := mem_edges_with_property;
    t_edges_with_property_value := mem_edges_with_property_value;
    t_vertex_property := mem_vertex_property;
    t_all_vertex_properties := mem_all_vertex_properties;
    t_edge_property := mem_edge_property;
    t_all_edge_properties := mem_all_edge_properties;
    t_delete_vertices := mem_delete_vertices;
    t_delete_edges := mem_delete_edges;
    t_delete_vertex_properties := mem_delete_vertex_properties;
    t_delete_edge_properties := mem_delete_edge_properties;
    t_sync := mem_sync;
    t_create_vertex := mem_create_vertex;
    t_create_edge := mem_create_edge;
    t_bulk_insert := mem_bulk_insert;
    t_index_property := mem_index_property;
    t_set_vertex_properties := mem_set_vertex_properties;
    t_set_edge_properties := mem_set_edge_properties |}.
End Memory.

(** ** The datastore behind its mutex.

    [None] is a poisoned mutex: a panic while the guard is held poisons it and
    every later [transaction()] (memory/datastore.rs 453-458, [lock().unwrap()])
    panics. *)
Definition mem_db := option memory.

(** One call on the datastore (memory/datastore.rs 451-459). *)
Definition mem_step (dbg : bool) (st : mem_db) (x : order * op) : outcome res * mem_db :=
  match st with
  | None => (Panic, None)
  | Some m =>
    match exec (mem_ops dbg (fst x)) m (snd x) with
    | (Panic, _) => (Panic, None)
    | (r, m') => (r, Some m')
    end
  end.

(** The state after a history of calls on a fresh database ([new_db]). *)
Definition mem_run (dbg : bool) (h : list (order * op)) : mem_db :=
  fold_left (fun st x => snd (mem_step dbg st x)) h (Some mem_empty).
