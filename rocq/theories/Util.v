(** * lib/src/util.rs and Identifier validation. *)
From Verif Require Import Base OMap Json Types.

Set Implicit Arguments.

Section Hash.
  (** The standard hasher ([DefaultHasher::new()], fixed keys): an arbitrary
      function from the fed bytes to a [u64]; the result is reduced mod 2^64. *)
  Variable H : list byte -> N.

  (** util.rs 23-32: [Component] ([FixedLengthString] carries the bytes). *)
  Inductive component :=
  | CUuid (u : uuid)
  | CStr (s : list byte)
  | CIdent (i : ident)
  | CJson (v : json).

  (** Big-endian bytes of a 64-bit number ([write_u64::<BigEndian>]). *)
  Fixpoint be_bytes (k : nat) (n : N) : list byte :=
    match k with
    | O => []
    | S k' => be_bytes k' (n / 256)%N ++ [byte_of n]
    end.
  Definition be64 (n : N) : list byte := be_bytes 8 n.

  (** util.rs 47-62: [Component::write]; the length byte is [len as u8]. *)
  Definition component_write (c : component) : list byte :=
    match c with
    | CUuid u => ub u
    | CStr s => s
    | CIdent i => byte_of (lenN (ib i)) :: ib i
    | CJson v => be64 (H (json_stream v))
    end.

  (** util.rs 69-79: [build]. *)
  Definition build (cs : list component) : list byte := flat_map component_write cs.
End Hash.

(** ** Readers: consume a cursor, return the value and the rest. *)

(** [read_exact(n)]: fails with an I/O error at end of input. *)
Definition read_exact (n : nat) (l : list byte) : outcome (list byte * list byte) :=
  if (n <=? length l)%nat then Ok (firstn n l, skipn n l) else Err EIo.

(** [Uuid::from_slice]: 16 bytes (util.rs 85-95, 147-162). *)
Definition mk_uuid (l : list byte) : option uuid :=
  match bool_dec (Nat.eqb (length l) 16) true with
  | left e => Some (exist _ l e)
  | right _ => None
  end.
(** [Identifier::new_unchecked] on a string the code has read (models/identifiers.rs 45-47; util.rs 98-114). *)
Definition mk_ident (l : list byte) : option ident :=
  match bool_dec (ident_ok l) true with
  | left e => Some (exist _ l e)
  | right _ => None
  end.

(** util.rs 85-90: [read_uuid] ([Uuid::from_slice] of 16 bytes cannot fail). *)
Definition read_uuid (l : list byte) : outcome (uuid * list byte) :=
  let? (a, r) := read_exact 16 l in
  match mk_uuid a with Some u => Ok (u, r) | None => Panic end.

(** util.rs 101-112: [read_identifier].  The real function skips validation
    ([from_utf8_unchecked]); where that would create an invalid string the
    model answers [Panic] (undefined behaviour), so a proof that no panic
    occurs also covers this. *)
Definition read_identifier (l : list byte) : outcome (ident * list byte) :=
  let? (a, r) := read_exact 1 l in
  match a with
  | [b] => let? (s, r') := read_exact (N.to_nat (bN b)) r in
           match mk_ident s with Some i => Ok (i, r') | None => Panic end
  | _ => Panic
  end.

(** util.rs 118-122: [read_fixed_length_string]; callers turn the string into
    an identifier without validation (rdb/managers.rs), see [read_name]. *)
Definition read_fixed_length_string (l : list byte) : outcome (list byte) :=
  if utf8_valid l then Ok l else Err EIo.

(** [Identifier::new_unchecked(read_fixed_length_string(..)?)]; an identifier
    longer than 255 bytes cannot be obtained by the validating constructor, the
    model answers [Panic] there (proved unreachable). *)
Definition read_name (l : list byte) : outcome ident :=
  let? s := read_fixed_length_string l in
  match mk_ident s with Some i => Ok i | None => Panic end.

(** util.rs 128-131: [read_u64]; the value itself is never used by callers
    that matter, only the position. *)
Definition read_u64 (l : list byte) : outcome (list byte * list byte) := read_exact 8 l.

(** ** next_uuid (util.rs 147-160): increment from the last byte. *)

(** The loop over [i in (0..16).rev()], on the reversed byte list. *)
Fixpoint incr_rev (l : list byte) : option (list byte) :=
  match l with
  | [] => None
  | b :: r =>
    if (bN b <? 255)%N then Some (byte_of (bN b + 1) :: r)
    else option_map (cons x00) (incr_rev r)
  end.

(** util.rs 147-162, the bytes. *)
Definition next_bytes (l : list byte) : option (list byte) := option_map (@rev byte) (incr_rev (rev l)).

(** util.rs 147-162: [next_uuid]. *)
Definition next_uuid (u : uuid) : outcome uuid :=
  match next_bytes (ub u) with
  | None => Err (Invalid CannotIncrementUuid)
  | Some l => match mk_uuid l with Some u' => Ok u' | None => Panic end
  end.

(** ** Identifier::new (models/identifiers.rs 25-35) *)
Section Identifier.
  (** Unicode [char::is_alphanumeric], on code points. *)
  Variable alnum : N -> bool.

  (** errors.rs 135: [ValidationResult]. *)
  Inductive vresult (A : Type) := VOk (a : A) | VErr (e : verr).

  (** models/identifiers.rs 25-35: the test on each character. *)
  Definition char_ok (c : N) : bool := (c =? 45)%N || (c =? 95)%N || alnum c.

  (** The argument is a Rust [String]: valid UTF-8, given with its code points.
      A byte string that is not UTF-8 cannot be passed; the model answers
      [InvalidValue] there. *)
  Definition ident_new (s : list byte) : vresult ident :=
    if (255 <? length s)%nat then VErr _ ValueTooLong
    else match utf8_chars s with
         | None => VErr _ InvalidValue
         | Some cs =>
           if negb (forallb char_ok cs) then VErr _ InvalidValue
           else match mk_ident s with Some i => VOk i | None => VErr _ InvalidValue end
         end.
End Identifier.

(** [util.rs 166-172]: [extract_vertices]. *)
Definition extract_vertices (out : list outv) : option (list vertex) :=
  match rev out with Vertices l :: _ => Some l | _ => None end.
(** [util.rs 178-184]: [extract_edges]. *)
Definition extract_edges (out : list outv) : option (list edge) :=
  match rev out with Edges l :: _ => Some l | _ => None end.
(** [util.rs 190-196]: [extract_count]. *)
Definition extract_count (out : list outv) : option N :=
  match rev out with Count n :: _ => Some n | _ => None end.
(** [util.rs 202-208]: [extract_vertex_properties]. *)
Definition extract_vertex_properties (out : list outv) : option (list vprops) :=
  match rev out with VertexProperties l :: _ => Some l | _ => None end.
(** [util.rs 214-220]: [extract_edge_properties]. *)
Definition extract_edge_properties (out : list outv) : option (list eprops) :=
  match rev out with EdgeProperties l :: _ => Some l | _ => None end.
