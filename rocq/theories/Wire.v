(** * The protobuf wire format: prost 0.13.4 (src/encoding.rs) on the messages
    of proto/indradb.proto, and tonic 0.12.3's message size limit.

    Decoding is modelled in two steps: the bytes of a message are split into
    fields, then the fields are merged into the message one by one.  prost does
    both in one pass over the buffer and does not cut the buffer at the end of
    an embedded message, but then fails because the message was longer than
    announced; as all errors are alike here, this makes no difference. *)
From Verif Require Import Base OMap Json Types Proto.

Set Implicit Arguments.
Local Open Scope list_scope.
Local Notation bytes := (list byte).

(** ** Integers and fields *)

(** encoding.rs, varint.rs: [encode_varint]: seven bits a byte, low bits first,
    at most ten bytes. *)
Fixpoint varint_aux (k : nat) (n : N) : bytes :=
  match k with
  | O => []
  | S k => if (n <? 128)%N then [byte_of n] else byte_of (n mod 128 + 128) :: varint_aux k (n / 128)
  end.
Definition varint (n : N) : bytes := varint_aux 10 n.

(** [decode_varint]: [k] bytes are left; the tenth may only be 0 or 1. *)
Fixpoint unvarint_aux (k : nat) (b : bytes) : option (N * bytes) :=
  match k, b with
  | O, _ | _, [] => None
  | S k, x :: r =>
    if (bN x <? 128)%N then
      if (k =? 0)%nat && (2 <=? bN x)%N then None else Some (bN x, r)
    else match unvarint_aux k r with
         | Some (n, r') => Some (bN x - 128 + 128 * n, r')%N
         | None => None
         end
  end.
(** [decode_varint]. *)
Definition unvarint (b : bytes) : option (N * bytes) := unvarint_aux 10 b.

(** The payload of a field, by wire type 0 (varint), 2 (length-delimited), and
    1, 5, 3 (eight bytes, four bytes, group), which no field here has. *)
Inductive wval := WVar (n : N) | WLen (b : bytes) | WOther.

(** [encode_key] and the payload. *)
Definition put_field (f : N * wval) : bytes :=
  match snd f with
  | WVar n => varint (8 * fst f) ++ varint n
  | WLen b => varint (8 * fst f + 2) ++ varint (lenN b) ++ b
  | WOther => []
  end.
Definition wire (l : list (N * wval)) : bytes := flat_map put_field l.

(** [decode_key]: tag and wire type. *)
Definition get_key (b : bytes) : option (N * N * bytes) :=
  match unvarint b with
  | Some (k, r) =>
    if (2 ^ 32 <=? k)%N then None
    else if (k / 8 =? 0)%N then None
    else Some (k / 8, k mod 8, r)%N
  | None => None
  end.
Definition take (n : N) (b : bytes) : option (bytes * bytes) :=
  if (lenN b <? n)%N then None else Some (firstn (N.to_nat n) b, skipn (N.to_nat n) b).

(** [skip_field].  [d] is the recursion count of the context: 0 is an error
    whatever the field; [f] bounds the number of calls. *)
Fixpoint skip_field (f d : nat) (t w : N) (b : bytes) : option bytes :=
  match f, d with
  | O, _ | _, O => None
  | S f, S d =>
    if (w =? 0)%N then option_map snd (unvarint b)
    else if (w =? 1)%N then option_map snd (take 8 b)
    else if (w =? 2)%N then match unvarint b with Some (n, r) => option_map snd (take n r) | None => None end
    else if (w =? 3)%N then skip_group f d t b
    else if (w =? 5)%N then option_map snd (take 4 b)
    else None
  end
with skip_group (f d : nat) (t : N) (b : bytes) : option bytes :=
  match f with
  | O => None
  | S f =>
    match get_key b with
    | None => None
    | Some (t', w, r) =>
      if (w =? 4)%N then if (t' =? t)%N then Some r else None
      else match skip_field f d t' w r with Some r' => skip_group f d t r' | None => None end
    end
  end.

(** The fields of a message, in order. *)
Fixpoint fields (f d : nat) (b : bytes) : option (list (N * wval)) :=
  match b with
  | [] => Some []
  | _ =>
    match f with
    | O => None
    | S f =>
      match get_key b with
      | None => None
      | Some (t, w, r) =>
        match
          (if (w =? 0)%N then match unvarint r with Some (n, r') => Some (WVar n, r') | None => None end
           else if (w =? 2)%N then
             match unvarint r with
             | Some (n, r1) => match take n r1 with Some (x, r') => Some (WLen x, r') | None => None end
             | None => None
             end
           else match skip_field f d t w r with Some r' => Some (WOther, r') | None => None end)
        with
        | None => None
        | Some (v, r') => match fields f d r' with Some l => Some ((t, v) :: l) | None => None end
        end
      end
    end
  end.

(** [Message::merge] and [merge_loop]: each field is merged; the first failure
    is final. *)
Fixpoint fold_fields {M} (step : M -> N * wval -> option M) (m : M) (l : list (N * wval)) : option M :=
  match l with
  | [] => Some m
  | x :: r => match step m x with Some m' => fold_fields step m' r | None => None end
  end.
Definition merge {M} (step : M -> N * wval -> option M) (d : nat) (m : M) (b : bytes) : option M :=
  match fields (S (length b)) d b with Some l => fold_fields step m l | None => None end.

(** ** Field kinds *)

(** A tag the message does not have: [skip_field]. *)
Definition unknown {M} (d : nat) (m : M) : option M := match d with O => None | S _ => Some m end.
(** [uint32], [uint64], [bool], enumerations (an [i32]). *)
Definition get_u64 (v : wval) : option N := match v with WVar n => Some n | _ => None end.
Definition get_u32 (v : wval) : option N := match v with WVar n => Some (n mod 2 ^ 32)%N | _ => None end.
Definition get_bool (v : wval) : option bool := match v with WVar n => Some (negb (n =? 0)%N) | _ => None end.
Definition get_i32 (v : wval) : option Z :=
  match v with
  | WVar n => let k := (Z.of_N n mod 2 ^ 32)%Z in Some (if (k <? 2 ^ 31)%Z then k else k - 2 ^ 32)%Z
  | _ => None
  end.
(** [bytes], [string]. *)
Definition get_bytes (v : wval) : option bytes := match v with WLen b => Some b | _ => None end.
Definition get_string (v : wval) : option bytes :=
  match v with WLen b => if utf8_valid b then Some b else None | _ => None end.
(** [message::merge]: into the present value or a default one, with a smaller
    recursion count. *)
Definition down {M} (dec : nat -> M -> bytes -> option M) (d : nat) (m : M) (b : bytes) : option M :=
  match d with O => None | S d => dec d m b end.
Definition or_default {M} (dflt : M) (o : option M) : M := match o with Some m => m | None => dflt end.
Definition get_msg {M} (dec : M -> bytes -> option M) (m : M) (v : wval) : option M :=
  match v with WLen b => dec m b | _ => None end.

(** Writing: a field with the default value is left out, a present message is
    written even if empty. *)
Definition put_num (t n : N) : list (N * wval) := if (n =? 0)%N then [] else [(t, WVar n)].
Definition put_bool (t : N) (b : bool) : list (N * wval) := if b then [(t, WVar 1)] else [].
Definition put_i32 (t : N) (z : Z) : list (N * wval) := if (z =? 0)%Z then [] else [(t, WVar (Z.to_N (z mod 2 ^ 64)))].
Definition put_bytes (t : N) (b : bytes) : list (N * wval) := match b with [] => [] | _ => [(t, WLen b)] end.
Definition put_opt {M} (t : N) (enc : M -> bytes) (o : option M) : list (N * wval) :=
  match o with Some m => [(t, WLen (enc m))] | None => [] end.
Definition put_list {M} (t : N) (enc : M -> bytes) (l : list M) : list (N * wval) := map (fun m => (t, WLen (enc m))) l.

(** ** The messages of indradb.proto; prost writes fields in the order of their tags *)

(** indradb.proto: [google.protobuf.Empty]. *)
Definition put_empty : bytes := [].
Definition dec_empty (d : nat) (_ : unit) (b : bytes) : option unit := merge (fun m _ => unknown d m) d tt b.

(** indradb.proto 9-12. *)
Definition enc_uuid (u : puuid) : bytes := wire (put_bytes 1 (pu_value u)).
Definition dec_uuid (d : nat) : puuid -> bytes -> option puuid :=
  merge (fun m f => if (fst f =? 1)%N then option_map PUuid (get_bytes (snd f)) else unknown d m) d.
(** indradb.proto 16-18. *)
Definition enc_ident (i : pident) : bytes := wire (put_bytes 1 (pi_value i)).
Definition dec_ident (d : nat) : pident -> bytes -> option pident :=
  merge (fun m f => if (fst f =? 1)%N then option_map PIdent (get_string (snd f)) else unknown d m) d.
(** indradb.proto 21-23. *)
Definition enc_json (v : pjson) : bytes := wire (put_bytes 1 (pj_value v)).
Definition dec_json (d : nat) : pjson -> bytes -> option pjson :=
  merge (fun m f => if (fst f =? 1)%N then option_map PJson (get_string (snd f)) else unknown d m) d.
(** Optional fields of these types. *)
Definition opt_uuid (d : nat) (o : option puuid) (v : wval) : option puuid := get_msg (down dec_uuid d) (or_default (PUuid []) o) v.
Definition opt_ident (d : nat) (o : option pident) (v : wval) : option pident := get_msg (down dec_ident d) (or_default (PIdent []) o) v.
Definition opt_json (d : nat) (o : option pjson) (v : wval) : option pjson := get_msg (down dec_json d) (or_default (PJson []) o) v.

(** indradb.proto 30-40. *)
Definition enc_edge (e : pedge) : bytes :=
  wire (put_opt 1 enc_uuid (pe_outbound e) ++ put_opt 2 enc_ident (pe_t e) ++ put_opt 3 enc_uuid (pe_inbound e)).
Definition dec_edge (d : nat) : pedge -> bytes -> option pedge :=
  merge (fun m f =>
    if (fst f =? 1)%N then option_map (fun x => PEdge (Some x) (pe_t m) (pe_inbound m)) (opt_uuid d (pe_outbound m) (snd f))
    else if (fst f =? 2)%N then option_map (fun x => PEdge (pe_outbound m) (Some x) (pe_inbound m)) (opt_ident d (pe_t m) (snd f))
    else if (fst f =? 3)%N then option_map (fun x => PEdge (pe_outbound m) (pe_t m) (Some x)) (opt_uuid d (pe_inbound m) (snd f))
    else unknown d m) d.
(** [Edge::default()]. *)
Definition no_edge : pedge := PEdge None None None.
(** indradb.proto 43-48. *)
Definition enc_vertex (v : pvertex) : bytes := wire (put_opt 1 enc_uuid (pv_id v) ++ put_opt 2 enc_ident (pv_t v)).
Definition dec_vertex (d : nat) : pvertex -> bytes -> option pvertex :=
  merge (fun m f =>
    if (fst f =? 1)%N then option_map (fun x => PVertex (Some x) (pv_t m)) (opt_uuid d (pv_id m) (snd f))
    else if (fst f =? 2)%N then option_map (fun x => PVertex (pv_id m) (Some x)) (opt_ident d (pv_t m) (snd f))
    else unknown d m) d.
(** [Vertex::default()]. *)
Definition no_vertex : pvertex := PVertex None None.
(** Optional fields of these types. *)
Definition opt_edge (d : nat) (o : option pedge) (v : wval) : option pedge := get_msg (down dec_edge d) (or_default no_edge o) v.
Definition opt_vertex (d : nat) (o : option pvertex) (v : wval) : option pvertex := get_msg (down dec_vertex d) (or_default no_vertex o) v.

(** *** Queries.  The messages below [Query] are tuples of their fields. *)

(** [RangeVertexQuery]. *)
Definition dec_range (d : nat) : N * option pident * option puuid -> bytes -> option (N * option pident * option puuid) :=
  merge (fun m f =>
    let '(l, t, s) := m in
    if (fst f =? 1)%N then option_map (fun x => (x, t, s)) (get_u32 (snd f))
    else if (fst f =? 2)%N then option_map (fun x => (l, Some x, s)) (opt_ident d t (snd f))
    else if (fst f =? 3)%N then option_map (fun x => (l, t, Some x)) (opt_uuid d s (snd f))
    else unknown d m) d.
(** [SpecificVertexQuery], [SpecificEdgeQuery], and the other messages with
    one repeated message field with tag 1. *)
Definition dec_list {M} (dec : nat -> M -> bytes -> option M) (dflt : M) (d : nat) : list M -> bytes -> option (list M) :=
  merge (fun l f =>
    if (fst f =? 1)%N then option_map (fun x => l ++ [x]) (get_msg (down dec d) dflt (snd f)) else unknown d l) d.
(** [VertexWithPropertyPresenceQuery], [EdgeWithPropertyPresenceQuery],
    [IndexPropertyRequest]. *)
Definition dec_name (d : nat) : option pident -> bytes -> option (option pident) :=
  merge (fun m f => if (fst f =? 1)%N then option_map Some (opt_ident d m (snd f)) else unknown d m) d.
(** [VertexWithPropertyValueQuery], [EdgeWithPropertyValueQuery]. *)
Definition dec_name_value (d : nat) : option pident * option pjson -> bytes -> option (option pident * option pjson) :=
  merge (fun m f =>
    if (fst f =? 1)%N then option_map (fun x => (Some x, snd m)) (opt_ident d (fst m) (snd f))
    else if (fst f =? 2)%N then option_map (fun x => (fst m, Some x)) (opt_json d (snd m) (snd f))
    else unknown d m) d.

(** The messages with an inner query, given how to decode it. *)
Section Inner.
  Variable inner : pquery -> bytes -> option pquery.
  Variable d : nat.
  Definition opt_query (o : option pquery) (v : wval) : option pquery := get_msg inner (or_default PQNone o) v.
  (** [PipeQuery]. *)
  Definition dec_pipe : option pquery * Z * N * option pident -> bytes -> option (option pquery * Z * N * option pident) :=
    merge (fun m f =>
      let '(i, dir, l, t) := m in
      if (fst f =? 1)%N then option_map (fun x => (Some x, dir, l, t)) (opt_query i (snd f))
      else if (fst f =? 2)%N then option_map (fun x => (i, x, l, t)) (get_i32 (snd f))
      else if (fst f =? 3)%N then option_map (fun x => (i, dir, x, t)) (get_u32 (snd f))
      else if (fst f =? 4)%N then option_map (fun x => (i, dir, l, Some x)) (opt_ident d t (snd f))
      else unknown d m) d.
  (** [PipePropertyQuery]. *)
  Definition dec_pipe_property : option pquery * option pident -> bytes -> option (option pquery * option pident) :=
    merge (fun m f =>
      if (fst f =? 1)%N then option_map (fun x => (Some x, snd m)) (opt_query (fst m) (snd f))
      else if (fst f =? 2)%N then option_map (fun x => (fst m, Some x)) (opt_ident d (snd m) (snd f))
      else unknown d m) d.
  (** [PipeWithPropertyPresenceQuery]. *)
  Definition dec_pipe_presence : option pquery * option pident * bool -> bytes -> option (option pquery * option pident * bool) :=
    merge (fun m f =>
      let '(i, n, e) := m in
      if (fst f =? 1)%N then option_map (fun x => (Some x, n, e)) (opt_query i (snd f))
      else if (fst f =? 2)%N then option_map (fun x => (i, Some x, e)) (opt_ident d n (snd f))
      else if (fst f =? 3)%N then option_map (fun x => (i, n, x)) (get_bool (snd f))
      else unknown d m) d.
  (** [PipeWithPropertyValueQuery]. *)
  Definition dec_pipe_value : option pquery * option pident * option pjson * bool -> bytes -> option (option pquery * option pident * option pjson * bool) :=
    merge (fun m f =>
      let '(i, n, v, e) := m in
      if (fst f =? 1)%N then option_map (fun x => (Some x, n, v, e)) (opt_query i (snd f))
      else if (fst f =? 2)%N then option_map (fun x => (i, Some x, v, e)) (opt_ident d n (snd f))
      else if (fst f =? 3)%N then option_map (fun x => (i, n, Some x, e)) (opt_json d v (snd f))
      else if (fst f =? 4)%N then option_map (fun x => (i, n, v, x)) (get_bool (snd f))
      else unknown d m) d.
  (** [IncludeQuery], [CountQuery]. *)
  Definition dec_inner : option pquery -> bytes -> option (option pquery) :=
    merge (fun m f => if (fst f =? 1)%N then option_map Some (opt_query m (snd f)) else unknown d m) d.
End Inner.

(** [Query]: a [oneof] of messages.  A second field of the same kind is merged
    into the first, one of another kind replaces it. *)
Fixpoint dec_query (d : nat) (q : pquery) (b : bytes) {struct d} : option pquery :=
  let inner := match d with S (S d) => dec_query d | _ => fun _ _ => None end in
  merge (fun q f =>
    match d with
    | O => None
    | S d =>
      let (t, v) := f in
      if (t =? 1)%N then
        option_map (fun _ => PQAllVertex) (get_msg (dec_empty d) tt v)
      else if (t =? 2)%N then
        option_map (fun x => let '(l, t, s) := x in PQRangeVertex l t s)
          (get_msg (dec_range d) (match q with PQRangeVertex l t s => (l, t, s) | _ => (0%N, None, None) end) v)
      else if (t =? 3)%N then
        option_map PQSpecificVertex
          (get_msg (dec_list dec_uuid (PUuid []) d) (match q with PQSpecificVertex l => l | _ => [] end) v)
      else if (t =? 4)%N then
        option_map PQVertexWithPropertyPresence
          (get_msg (dec_name d) (match q with PQVertexWithPropertyPresence n => n | _ => None end) v)
      else if (t =? 5)%N then
        option_map (fun x => PQVertexWithPropertyValue (fst x) (snd x))
          (get_msg (dec_name_value d) (match q with PQVertexWithPropertyValue n x => (n, x) | _ => (None, None) end) v)
      else if (t =? 6)%N then
        option_map (fun _ => PQAllEdge) (get_msg (dec_empty d) tt v)
      else if (t =? 7)%N then
        option_map PQSpecificEdge
          (get_msg (dec_list dec_edge no_edge d) (match q with PQSpecificEdge l => l | _ => [] end) v)
      else if (t =? 8)%N then
        option_map PQEdgeWithPropertyPresence
          (get_msg (dec_name d) (match q with PQEdgeWithPropertyPresence n => n | _ => None end) v)
      else if (t =? 9)%N then
        option_map (fun x => PQEdgeWithPropertyValue (fst x) (snd x))
          (get_msg (dec_name_value d) (match q with PQEdgeWithPropertyValue n x => (n, x) | _ => (None, None) end) v)
      else if (t =? 10)%N then
        option_map (fun x => let '(i, dir, l, t) := x in PQPipe i dir l t)
          (get_msg (dec_pipe inner d) (match q with PQPipe i dir l t => (i, dir, l, t) | _ => (None, 0%Z, 0%N, None) end) v)
      else if (t =? 11)%N then
        option_map (fun x => PQPipeProperty (fst x) (snd x))
          (get_msg (dec_pipe_property inner d) (match q with PQPipeProperty i n => (i, n) | _ => (None, None) end) v)
      else if (t =? 12)%N then
        option_map (fun x => let '(i, n, e) := x in PQPipeWithPropertyPresence i n e)
          (get_msg (dec_pipe_presence inner d) (match q with PQPipeWithPropertyPresence i n e => (i, n, e) | _ => (None, None, false) end) v)
      else if (t =? 13)%N then
        option_map (fun x => let '(i, n, v, e) := x in PQPipeWithPropertyValue i n v e)
          (get_msg (dec_pipe_value inner d) (match q with PQPipeWithPropertyValue i n v e => (i, n, v, e) | _ => (None, None, None, false) end) v)
      else if (t =? 14)%N then
        option_map PQInclude (get_msg (dec_inner inner d) (match q with PQInclude i => i | _ => None end) v)
      else if (t =? 15)%N then
        option_map PQCount (get_msg (dec_inner inner d) (match q with PQCount i => i | _ => None end) v)
      else Some q
    end) d q b.

(** indradb.proto 51-197. *)
Fixpoint enc_query (q : pquery) : bytes :=
  let inner (o : option pquery) : list (N * wval) := match o with Some i => [(1%N, WLen (enc_query i))] | None => [] end in
  wire
    match q with
    | PQNone => []
    | PQAllVertex => [(1%N, WLen put_empty)]
    | PQRangeVertex l t s => [(2%N, WLen (wire (put_num 1 l ++ put_opt 2 enc_ident t ++ put_opt 3 enc_uuid s)))]
    | PQSpecificVertex ids => [(3%N, WLen (wire (put_list 1 enc_uuid ids)))]
    | PQVertexWithPropertyPresence n => [(4%N, WLen (wire (put_opt 1 enc_ident n)))]
    | PQVertexWithPropertyValue n v => [(5%N, WLen (wire (put_opt 1 enc_ident n ++ put_opt 2 enc_json v)))]
    | PQAllEdge => [(6%N, WLen put_empty)]
    | PQSpecificEdge es => [(7%N, WLen (wire (put_list 1 enc_edge es)))]
    | PQEdgeWithPropertyPresence n => [(8%N, WLen (wire (put_opt 1 enc_ident n)))]
    | PQEdgeWithPropertyValue n v => [(9%N, WLen (wire (put_opt 1 enc_ident n ++ put_opt 2 enc_json v)))]
    | PQPipe i dir l t => [(10%N, WLen (wire (inner i ++ put_i32 2 dir ++ put_num 3 l ++ put_opt 4 enc_ident t)))]
    | PQPipeProperty i n => [(11%N, WLen (wire (inner i ++ put_opt 2 enc_ident n)))]
    | PQPipeWithPropertyPresence i n e => [(12%N, WLen (wire (inner i ++ put_opt 2 enc_ident n ++ put_bool 3 e)))]
    | PQPipeWithPropertyValue i n v e =>
      [(13%N, WLen (wire (inner i ++ put_opt 2 enc_ident n ++ put_opt 3 enc_json v ++ put_bool 4 e)))]
    | PQInclude i => [(14%N, WLen (wire (inner i)))]
    | PQCount i => [(15%N, WLen (wire (inner i)))]
    end.

(** *** Results *)

(** [NamedProperty]: [value] has the smaller tag. *)
Definition enc_nprop (p : pnprop) : bytes := wire (put_opt 2 enc_json (pn_value p) ++ put_opt 3 enc_ident (pn_name p)).
Definition dec_nprop (d : nat) : pnprop -> bytes -> option pnprop :=
  merge (fun m f =>
    if (fst f =? 3)%N then option_map (fun x => PNProp (Some x) (pn_value m)) (opt_ident d (pn_name m) (snd f))
    else if (fst f =? 2)%N then option_map (fun x => PNProp (pn_name m) (Some x)) (opt_json d (pn_value m) (snd f))
    else unknown d m) d.
Definition no_nprop : pnprop := PNProp None None.
Definition enc_vprops (p : pvprops) : bytes := wire (put_opt 1 enc_vertex (pvs_vertex p) ++ put_list 2 enc_nprop (pvs_props p)).
Definition dec_vprops (d : nat) : pvprops -> bytes -> option pvprops :=
  merge (fun m f =>
    if (fst f =? 1)%N then option_map (fun x => PVProps (Some x) (pvs_props m)) (opt_vertex d (pvs_vertex m) (snd f))
    else if (fst f =? 2)%N then option_map (fun x => PVProps (pvs_vertex m) (pvs_props m ++ [x])) (get_msg (down dec_nprop d) no_nprop (snd f))
    else unknown d m) d.
(** indradb.proto 272-277. *)
Definition enc_eprops (p : peprops) : bytes := wire (put_opt 1 enc_edge (pes_edge p) ++ put_list 2 enc_nprop (pes_props p)).
Definition dec_eprops (d : nat) : peprops -> bytes -> option peprops :=
  merge (fun m f =>
    if (fst f =? 1)%N then option_map (fun x => PEProps (Some x) (pes_props m)) (opt_edge d (pes_edge m) (snd f))
    else if (fst f =? 2)%N then option_map (fun x => PEProps (pes_edge m) (pes_props m ++ [x])) (get_msg (down dec_nprop d) no_nprop (snd f))
    else unknown d m) d.

(** [QueryOutputValue]. *)
Definition enc_out (v : pout) : bytes :=
  wire
    match v with
    | PONone => []
    | POVertices l => [(1%N, WLen (wire (put_list 1 enc_vertex l)))]
    | POEdges l => [(2%N, WLen (wire (put_list 1 enc_edge l)))]
    | POCount n => [(3%N, WVar n)]
    | POVertexProperties l => [(4%N, WLen (wire (put_list 1 enc_vprops l)))]
    | POEdgeProperties l => [(5%N, WLen (wire (put_list 1 enc_eprops l)))]
    end.
Definition dec_out (d : nat) : pout -> bytes -> option pout :=
  merge (fun m f =>
    if (fst f =? 1)%N then option_map POVertices
      (get_msg (down (dec_list dec_vertex no_vertex) d) (match m with POVertices l => l | _ => [] end) (snd f))
    else if (fst f =? 2)%N then option_map POEdges
      (get_msg (down (dec_list dec_edge no_edge) d) (match m with POEdges l => l | _ => [] end) (snd f))
    else if (fst f =? 3)%N then option_map POCount (get_u64 (snd f))
    else if (fst f =? 4)%N then option_map POVertexProperties
      (get_msg (down (dec_list dec_vprops (PVProps None [])) d) (match m with POVertexProperties l => l | _ => [] end) (snd f))
    else if (fst f =? 5)%N then option_map POEdgeProperties
      (get_msg (down (dec_list dec_eprops (PEProps None [])) d) (match m with POEdgeProperties l => l | _ => [] end) (snd f))
    else unknown d m) d.

(** *** Requests and responses *)

(** [VertexPropertyBulkInsertItem], [EdgePropertyBulkInsertItem]: tags 1, 3, 4. *)
Definition dec_vbulk (d : nat) : option puuid * option pident * option pjson -> bytes -> option (option puuid * option pident * option pjson) :=
  merge (fun m f =>
    let '(i, n, v) := m in
    if (fst f =? 1)%N then option_map (fun x => (Some x, n, v)) (opt_uuid d i (snd f))
    else if (fst f =? 4)%N then option_map (fun x => (i, Some x, v)) (opt_ident d n (snd f))
    else if (fst f =? 3)%N then option_map (fun x => (i, n, Some x)) (opt_json d v (snd f))
    else unknown d m) d.
Definition dec_ebulk (d : nat) : option pedge * option pident * option pjson -> bytes -> option (option pedge * option pident * option pjson) :=
  merge (fun m f =>
    let '(e, n, v) := m in
    if (fst f =? 1)%N then option_map (fun x => (Some x, n, v)) (opt_edge d e (snd f))
    else if (fst f =? 4)%N then option_map (fun x => (e, Some x, v)) (opt_ident d n (snd f))
    else if (fst f =? 3)%N then option_map (fun x => (e, n, Some x)) (opt_json d v (snd f))
    else unknown d m) d.
(** [BulkInsertItem]. *)
Definition enc_bulk (it : pbulk) : bytes :=
  wire
    match it with
    | PBNone => []
    | PBVertex v => [(1%N, WLen (enc_vertex v))]
    | PBEdge e => [(2%N, WLen (enc_edge e))]
    | PBVertexProperty i n v => [(3%N, WLen (wire (put_opt 1 enc_uuid i ++ put_opt 3 enc_json v ++ put_opt 4 enc_ident n)))]
    | PBEdgeProperty e n v => [(4%N, WLen (wire (put_opt 1 enc_edge e ++ put_opt 3 enc_json v ++ put_opt 4 enc_ident n)))]
    end.
Definition dec_bulk (d : nat) : pbulk -> bytes -> option pbulk :=
  merge (fun m f =>
    if (fst f =? 1)%N then option_map PBVertex (get_msg (down dec_vertex d) (match m with PBVertex v => v | _ => no_vertex end) (snd f))
    else if (fst f =? 2)%N then option_map PBEdge (get_msg (down dec_edge d) (match m with PBEdge e => e | _ => no_edge end) (snd f))
    else if (fst f =? 3)%N then option_map (fun x => let '(i, n, v) := x in PBVertexProperty i n v)
      (get_msg (down dec_vbulk d) (match m with PBVertexProperty i n v => (i, n, v) | _ => (None, None, None) end) (snd f))
    else if (fst f =? 4)%N then option_map (fun x => let '(e, n, v) := x in PBEdgeProperty e n v)
      (get_msg (down dec_ebulk d) (match m with PBEdgeProperty e n v => (e, n, v) | _ => (None, None, None) end) (snd f))
    else unknown d m) d.

(** indradb.proto 306-308. *)
Definition enc_index_req (r : pindex_req) : bytes := wire (put_opt 1 enc_ident (pir_name r)).
Definition dec_index_req (d : nat) (m : pindex_req) (b : bytes) : option pindex_req :=
  option_map PIndexReq (dec_name d (pir_name m) b).
(** indradb.proto 310-314. *)
Definition enc_set_req (r : pset_req) : bytes :=
  wire (put_opt 1 enc_query (psr_q r) ++ put_opt 2 enc_ident (psr_name r) ++ put_opt 3 enc_json (psr_value r)).
Definition dec_set_req (d : nat) : pset_req -> bytes -> option pset_req :=
  merge (fun m f =>
    if (fst f =? 1)%N then option_map (fun x => PSetReq (Some x) (psr_name m) (psr_value m)) (opt_query (down dec_query d) (psr_q m) (snd f))
    else if (fst f =? 2)%N then option_map (fun x => PSetReq (psr_q m) (Some x) (psr_value m)) (opt_ident d (psr_name m) (snd f))
    else if (fst f =? 3)%N then option_map (fun x => PSetReq (psr_q m) (psr_name m) (Some x)) (opt_json d (psr_value m) (snd f))
    else unknown d m) d.
(** [CreateResponse]. *)
Definition enc_created (b : bool) : bytes := wire (put_bool 1 b).
Definition dec_created (d : nat) : bool -> bytes -> option bool :=
  merge (fun m f => if (fst f =? 1)%N then get_bool (snd f) else unknown d m) d.
(** [ExecutePluginRequest], [ExecutePluginResponse]. *)
Definition enc_plugin_req (r : bytes * option pjson) : bytes := wire (put_bytes 1 (fst r) ++ put_opt 2 enc_json (snd r)).
Definition dec_plugin_req (d : nat) : bytes * option pjson -> bytes -> option (bytes * option pjson) :=
  merge (fun m f =>
    if (fst f =? 1)%N then option_map (fun x => (x, snd m)) (get_string (snd f))
    else if (fst f =? 2)%N then option_map (fun x => (fst m, Some x)) (opt_json d (snd m) (snd f))
    else unknown d m) d.
Definition enc_plugin_res (r : option pjson) : bytes := wire (put_opt 1 enc_json r).
Definition dec_plugin_res (d : nat) : option pjson -> bytes -> option (option pjson) :=
  merge (fun m f => if (fst f =? 1)%N then option_map Some (opt_json d m (snd f)) else unknown d m) d.

(** encoding.rs: [RECURSION_LIMIT]; [Message::decode] starts with it. *)
Definition recursion_limit : nat := 100.
Definition decode {M} (dec : nat -> M -> bytes -> option M) (dflt : M) (b : bytes) : option M := dec recursion_limit dflt b.
(** tonic 0.12.3, codec/mod.rs: [DEFAULT_MAX_RECV_MESSAGE_SIZE]; neither
    proto/src/client.rs nor proto/src/server.rs changes it. *)
Definition max_message : N := (4 * 1024 * 1024)%N.
