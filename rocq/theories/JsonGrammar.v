(** * The JSON grammar (RFC 8259), as a relation between texts and values

    A specification only; it uses nothing of the reader modelled in JsonText.v but
    [decimal] (the digits of a number without leading zeros) and [utf8_enc] (the
    UTF-8 bytes of a code point).  [fread]: what a number with a fraction, an
    exponent or too many digits means (FloatText.v). *)
From Coq Require Import Sorting.Sorted.
From Verif Require Import Base OMap Json Utf8 JsonText.

Set Implicit Arguments.

(** White space. *)
Definition blank (w : list byte) : Prop := Forall (fun b => In b [x20; x09; x0a; x0d]) w.

(** Strings. *)
Definition hex_table : list (byte * N) :=
  [(x30, 0); (x31, 1); (x32, 2); (x33, 3); (x34, 4); (x35, 5); (x36, 6); (x37, 7); (x38, 8); (x39, 9);
   (x61, 10); (x62, 11); (x63, 12); (x64, 13); (x65, 14); (x66, 15);
   (x41, 10); (x42, 11); (x43, 12); (x44, 13); (x45, 14); (x46, 15)]%N.
(** Four hexadecimal digits, in upper or lower case. *)
Definition hexes (a b c d : byte) (n : N) : Prop :=
  exists n1 n2 n3 n4, In (a, n1) hex_table /\ In (b, n2) hex_table /\ In (c, n3) hex_table /\ In (d, n4) hex_table /\
    n = (((n1 * 16 + n2) * 16 + n3) * 16 + n4)%N.
(** The short escapes: quote, backslash, slash, b, f, n, r, t. *)
Definition escapes : list (byte * byte) :=
  [(x22, x22); (x5c, x5c); (x2f, x2f); (x62, x08); (x66, x0c); (x6e, x0a); (x72, x0d); (x74, x09)].
(** [piece t s]: the characters [t] stand for the bytes [s]. *)
Inductive piece : list byte -> list byte -> Prop :=
| p_plain b : (32 <= bN b)%N -> b <> x22 -> b <> x5c -> piece [b] [b]
| p_short c s : In (c, s) escapes -> piece [x5c; c] [s]
| p_unicode a b c d n : hexes a b c d n -> (n < 0xD800 \/ 0xDFFF < n)%N -> piece [x5c; x75; a; b; c; d] (utf8_enc n)
| p_pair a b c d a' b' c' d' n : (0x10000 <= n <= 0x10FFFF)%N ->
    hexes a b c d (0xD800 + (n - 0x10000) / 1024) -> hexes a' b' c' d' (0xDC00 + (n - 0x10000) mod 1024) ->
    piece [x5c; x75; a; b; c; d; x5c; x75; a'; b'; c'; d'] (utf8_enc n).
Inductive pieces : list byte -> list byte -> Prop :=
| ps_nil : pieces [] []
| ps_cons t s t' s' : piece t s -> pieces t' s' -> pieces (t ++ t') (s ++ s').
(** A string is UTF-8. *)
Definition string_text (t s : list byte) : Prop := exists t', t = x22 :: t' ++ [x22] /\ pieces t' s /\ utf8_valid s = true.

(** Numbers. *)
Definition digit_char (b : byte) : Prop := In b [x30; x31; x32; x33; x34; x35; x36; x37; x38; x39].
Definition fraction_text (t : list byte) : Prop := t = [] \/ exists d, t = x2e :: d /\ d <> [] /\ Forall digit_char d.
Definition exponent_text (t : list byte) : Prop :=
  t = [] \/ exists e sg d, t = e :: sg ++ d /\ In e [x65; x45] /\ In sg [[]; [x2b]; [x2d]] /\ d <> [] /\ Forall digit_char d.
Section Values.
  Variable fread : list byte -> option N.

  Inductive number_text : list byte -> raw -> Prop :=
  | n_pos n : (n < 2 ^ 64)%N -> number_text (decimal n) (RPos n)
  | n_neg n : (0 < n <= 2 ^ 63)%N -> number_text (x2d :: decimal n) (RNeg (- Z.of_N n))
  | n_float sg n fr ex b :
      In sg [[]; [x2d]] -> fraction_text fr -> exponent_text ex ->
      (fr = [] -> ex = [] -> match sg with [] => 2 ^ 64 <= n | _ => n = 0 \/ 2 ^ 63 < n end)%N ->
      fread (sg ++ decimal n ++ fr ++ ex) = Some b ->
      number_text (sg ++ decimal n ++ fr ++ ex) (RFlt b).

  (** An object from its members: keys ascending, the last member with a key
      counts. *)
  Fixpoint lookup (k : list byte) (l : list (list byte * raw)) : option raw :=
    match l with [] => None | (k', v) :: r => if eqb k k' then Some v else lookup k r end.
  Definition last_wins (l m : list (list byte * raw)) : Prop :=
    StronglySorted (fun a b => cmp a b = Lt) (map fst m) /\ forall k, lookup k m = lookup k (rev l).

  (** [means n t v]: [t] is a text of [v] nested at most [n] deep. *)
  Inductive means : nat -> list byte -> raw -> Prop :=
  | m_null n : means n [x6e; x75; x6c; x6c] RNull
  | m_true n : means n [x74; x72; x75; x65] (RBool true)
  | m_false n : means n [x66; x61; x6c; x73; x65] (RBool false)
  | m_string n t s : string_text t s -> means n t (RStr s)
  | m_number n t v : number_text t v -> means n t v
  | m_empty_array n w : blank w -> means (S n) (x5b :: w ++ [x5d]) (RArr [])
  | m_array n t l : items n t l -> means (S n) (x5b :: t ++ [x5d]) (RArr l)
  | m_empty_object n w : blank w -> means (S n) (x7b :: w ++ [x7d]) (RObj [])
  | m_object n t l m : pairs n t l -> last_wins l m -> means (S n) (x7b :: t ++ [x7d]) (RObj m)
  with items : nat -> list byte -> list raw -> Prop :=
  | i_one n w t w' v : blank w -> blank w' -> means n t v -> items n (w ++ t ++ w') [v]
  | i_more n w t w' v t' l : blank w -> blank w' -> means n t v -> items n t' l -> items n (w ++ t ++ w' ++ x2c :: t') (v :: l)
  with pairs : nat -> list byte -> list (list byte * raw) -> Prop :=
  | q_one n w kt k w' w1 t w1' v : blank w -> string_text kt k -> blank w' -> blank w1 -> means n t v -> blank w1' ->
      pairs n (w ++ kt ++ w' ++ x3a :: w1 ++ t ++ w1') [(k, v)]
  | q_more n w kt k w' w1 t w1' v t' l : blank w -> string_text kt k -> blank w' -> blank w1 -> means n t v -> blank w1' -> pairs n t' l ->
      pairs n (w ++ kt ++ w' ++ x3a :: w1 ++ t ++ w1' ++ x2c :: t') ((k, v) :: l).

  (** A JSON text: a value with white space around it. *)
  Definition json_text (n : nat) (s : list byte) (v : raw) : Prop :=
    exists w t w', s = w ++ t ++ w' /\ blank w /\ blank w' /\ means n t v.
End Values.

Scheme means_mind := Minimality for means Sort Prop
  with items_mind := Minimality for items Sort Prop
  with pairs_mind := Minimality for pairs Sort Prop.
Combined Scheme means_items_pairs_ind from means_mind, items_mind, pairs_mind.
