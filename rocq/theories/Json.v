(** * JSON property values: models lib/src/models/json.rs.

    [raw] is [serde_json::Value]; numbers follow serde_json's internal
    representation ([PosInt(u64)], [NegInt(i64 < 0)], [Float(f64)], finite).
    Floats are kept as their 64-bit patterns and compared exactly. *)
From Verif Require Import Base OMap.

Set Implicit Arguments.

(** [serde_json::Value] (dependency, default features: object maps are sorted
    by key).  [RFlt] holds the bit pattern of an [f64]. *)
Inductive raw :=
| RNull
| RBool (b : bool)
| RPos (n : N)
| RNeg (z : Z)
| RFlt (bits : N)
| RStr (s : list byte)
| RArr (l : list raw)
| RObj (l : list (list byte * raw)).

(** Strictly ascending keys. *)
Fixpoint keys_ascb (l : list (list byte)) : bool :=
  match l with
  | [] => true
  | k :: r => match r with [] => true | k' :: _ => ltb k k' && keys_ascb r end
  end.

(** Values that exist in Rust: numbers in range, floats finite, strings valid
    UTF-8, object keys strictly ascending (serde_json's [Map] is a [BTreeMap]). *)
Fixpoint wf_raw (v : raw) : bool :=
  match v with
  | RNull | RBool _ => true
  | RPos n => (n <? 2 ^ 64)%N
  | RNeg z => (- 2 ^ 63 <=? z)%Z && (z <? 0)%Z
  | RFlt b => (b <? 2 ^ 64)%N && negb (((b / 2 ^ 52) mod 2 ^ 11) =? 2047)%N
  | RStr s => utf8_valid s
  | RArr l => forallb wf_raw l
  | RObj l => keys_ascb (map fst l) && forallb (fun kv => utf8_valid (fst kv) && wf_raw (snd kv)) l
  end.

(** models/json.rs 149: [Json]. *)
Definition json := bsub wf_raw.
Definition jraw (v : json) : raw := proj1_sig v.

(** ** f64 arithmetic needed by the comparison *)

(** The value of a finite [f64] bit pattern, multiplied by [2^1074]. *)
Definition f64_scaled (bits : N) : Z :=
  let sign := (bits / 2 ^ 63 mod 2)%N in
  let ex := ((bits / 2 ^ 52) mod 2 ^ 11)%N in
  let m := (bits mod 2 ^ 52)%N in
  let a := if (ex =? 0)%N then m else ((2 ^ 52 + m) * 2 ^ (ex - 1))%N in
  if (sign =? 0)%N then Z.of_N a else (- Z.of_N a)%Z.

(** [n as f64] for an unsigned integer: round to 53 bits, ties to even. *)
Definition round53 (n : N) : N :=
  let e := (N.log2 n - 52)%N in
  if (e =? 0)%N then n
  else
    let q := (n / 2 ^ e)%N in
    let r := (n mod 2 ^ e)%N in
    let half := (2 ^ (e - 1))%N in
    let q' := if (half <? r)%N || ((half =? r)%N && N.odd q) then (q + 1)%N else q in
    (q' * 2 ^ e)%N.

(** [z as f64], as an integer (the result of the conversion is integral). *)
Definition z_as_f64 (z : Z) : Z :=
  if (z <? 0)%Z then (- Z.of_N (round53 (Z.to_N (- z))))%Z else Z.of_N (round53 (Z.to_N z)).

(** ** Numbers *)

(** [Number::is_i64], [as_i64]. *)
Definition as_i64 (v : raw) : option Z :=
  match v with
  | RPos n => if (n <=? 2 ^ 63 - 1)%N then Some (Z.of_N n) else None
  | RNeg z => Some z
  | _ => None
  end.
(** [Number::is_u64], [as_u64]. *)
Definition as_u64 (v : raw) : option N := match v with RPos n => Some n | _ => None end.
(** [Number::as_f64], scaled by [2^1074]. *)
Definition as_f64 (v : raw) : Z :=
  match v with
  | RPos n => (z_as_f64 (Z.of_N n) * 2 ^ 1074)%Z
  | RNeg z => (z_as_f64 z * 2 ^ 1074)%Z
  | RFlt b => f64_scaled b
  | _ => 0%Z
  end.
Definition int_as_f64 (z : Z) : Z := (z_as_f64 z * 2 ^ 1074)%Z.
(** [i64::try_from(u64)] *)
Definition i64_of_u64 (n : N) : option Z :=
  if (n <=? 2 ^ 63 - 1)%N then Some (Z.of_N n) else None.
(** [u64::try_from(i64)] *)
Definition u64_of_i64 (z : Z) : option N := if (z <? 0)%Z then None else Some (Z.to_N z).

(** models/json.rs 63-98: comparison of two numbers, branch by branch. *)
Definition num_cmp (v1 v2 : raw) : option comparison :=
  match as_i64 v1 with
  | Some z1 =>
    match as_i64 v2 with
    | Some z2 => Some (Z.compare z1 z2)
    | None =>
      match as_u64 v2 with
      | Some n2 => match i64_of_u64 n2 with Some z2 => Some (Z.compare z1 z2) | None => Some Lt end
      | None => Some (Z.compare (int_as_f64 z1) (as_f64 v2))
      end
    end
  | None =>
    match as_u64 v1 with
    | Some n1 =>
      match as_i64 v2 with
      | Some z2 => match u64_of_i64 z2 with Some n2 => Some (N.compare n1 n2) | None => Some Gt end
      | None =>
        match as_u64 v2 with
        | Some n2 => Some (N.compare n1 n2)
        | None => Some (Z.compare (int_as_f64 (Z.of_N n1)) (as_f64 v2))
        end
      end
    | None =>
      match as_i64 v2 with
      | Some z2 => Some (Z.compare (as_f64 v1) (int_as_f64 z2))
      | None =>
        match as_u64 v2 with
        | Some n2 => Some (Z.compare (as_f64 v1) (int_as_f64 (Z.of_N n2)))
        | None => Some (Z.compare (as_f64 v1) (as_f64 v2))
        end
      end
    end
  end.

(** The pattern [Value::Number(_)] (models/json.rs 59-115). *)
Definition is_num (v : raw) : bool :=
  match v with RPos _ | RNeg _ | RFlt _ => true | _ => false end.

(** [bool]'s [Ord] (used at models/json.rs 59-115). *)
Definition bool_cmp (a b : bool) : comparison :=
  match a, b with false, true => Lt | true, false => Gt | _, _ => Eq end.

(** models/json.rs 117-144: [partial_cmp_by]. *)
Section PartialCmpBy.
  Variables (A : Type) (f : A -> A -> option comparison).
  Fixpoint partial_cmp_by (x y : list A) : option comparison :=
    match x with
    | [] => match y with [] => Some Eq | _ => Some Lt end
    | a :: x' =>
      match y with
      | [] => Some Gt
      | b :: y' => match f a b with Some Eq => partial_cmp_by x' y' | c => c end
      end
    end.
End PartialCmpBy.

(** models/json.rs 59-115: [partial_cmp]. *)
Fixpoint pcmp (a b : raw) : option comparison :=
  match a, b with
  | RNull, RNull => Some Eq
  | RBool x, RBool y => Some (bool_cmp x y)
  | RStr x, RStr y => Some (cmp x y)
  | RArr x, RArr y => partial_cmp_by pcmp x y
  | RObj x, RObj y =>
    partial_cmp_by (fun p q => match cmp (fst p) (fst q) with
                               | Eq => pcmp (snd p) (snd q)
                               | c => Some c
                               end) x y
  | _, _ => if is_num a && is_num b then num_cmp a b else None
  end.

(** models/json.rs 179-183: [PartialEq for Json]. *)
Definition raw_eq (a b : raw) : bool :=
  match pcmp a b with Some Eq => true | _ => false end.
Definition json_eq (a b : json) : bool := raw_eq (jraw a) (jraw b).
(** models/json.rs 185-189: [PartialOrd for Json]. *)
Definition json_cmp (a b : json) : option comparison := pcmp (jraw a) (jraw b).

(** ** Hashing *)

(** Eight bytes, least significant first ([Hash for u64/i64] feeds native-endian
    bytes; a little-endian machine is assumed, no theorem depends on it). *)
Fixpoint le_bytes (k : nat) (n : N) : list byte :=
  match k with
  | O => []
  | S k' => byte_of n :: le_bytes k' (n / 256)%N
  end.
Definition le64 (n : N) : list byte := le_bytes 8 n.
Definition u64_of_z (z : Z) : N := Z.to_N (z mod 2 ^ 64)%Z.

(** [Hash for str]: the bytes followed by 0xff. *)
Definition hash_str (s : list byte) : list byte := s ++ [xff].

(** models/json.rs 19-57: the bytes [hash] feeds to the hasher.  The standard
    hasher consumes a concatenated byte stream. *)
Fixpoint stream (v : raw) : list byte :=
  match v with
  | RNull => [x00]
  | RBool b => [x01; if b then x01 else x00]
  | RPos n => x02 :: le64 n
  | RNeg z => x02 :: le64 (u64_of_z z)
  | RFlt b => x02 :: le64 b
  | RStr s => x03 :: hash_str s
  | RArr l => x04 :: flat_map stream l
  | RObj l => x05 :: flat_map (fun kv => hash_str (fst kv) ++ stream (snd kv)) l
  end.
(** models/json.rs 173-177: [Hash for Json]. *)
Definition json_stream (v : json) : list byte := stream (jraw v).

(** Whether a lookup of [b] finds an entry stored under [a] in a
    [HashMap<Json, _>]: the hashes must agree and [Eq] must hold.
    Simplification: two different hash inputs are assumed never to collide
    inside the standard [HashMap] (it compares a 7-bit tag of a randomly keyed
    hash before calling [Eq]). *)
Definition key_eq (a b : json) : bool :=
  json_eq a b && eqb (json_stream a) (json_stream b).
