(** * The digits of floating-point numbers

    The two parameters of JsonText.v made concrete: how serde_json 1.0.135
    (Cargo.lock; no [float_roundtrip], no [arbitrary_precision]) writes an
    [f64] (through ryu 1.0.17, [Buffer::format_finite]) and how it reads a
    number that is not an integer ([de.rs]: [parse_integer], [parse_number],
    [parse_decimal], [parse_exponent], [parse_long_integer],
    [f64_from_parts]).  Both are dependencies of /repo (lib/src/rdb/managers.rs
    331, 338, 356, 442, 452, 470; proto/src/converters.rs 104-113), modelled
    from their published sources. *)
From Verif Require Import Base OMap Json JsonText F64.
Open Scope Z_scope.

Set Implicit Arguments.

(** ** Writing *)

(** The double nearest to [d * 10^k]. *)
Definition of_dec (d k : Z) : Z := if 0 <=? k then rnd (d * 10 ^ k) 1 else rnd d (10 ^ (- k)).

(** The two integers around [b / 10^k], the nearer one first (the even one if
    both are as near). *)
Definition around (b k : Z) : list Z :=
  let j := expnt b - 1074 in
  let n := if 0 <=? k then signif b * two j else signif b * two j * 10 ^ (- k) in
  let u := if 0 <=? k then two (- j) * 10 ^ k else two (- j) in
  let (q, r) := Z.div_eucl n u in
  if (u <? 2 * r) || (u =? 2 * r) && Z.odd q then [q + 1; q] else [q; q + 1].

(** ryu's [d2d]: of the decimals that are read back as [b] by a reader that
    rounds correctly, one with the largest power of ten, that is the fewest
    digits, and of those the nearest.  Simplification: ryu finds it with a table
    of powers of five, here it is searched for. *)
Definition at_step (b k : Z) : option Z := find (fun d => of_dec d k =? b) (around b k).
Fixpoint search (fuel : nat) (b k : Z) : Z * Z :=
  match fuel with
  | O => (0, 0)
  | S f => match at_step b k with Some d => (d, k) | None => search f b (k - 1) end
  end.
(** No larger power of ten can do. *)
Definition first_step (b : Z) : Z := let l := Z.log2 (signif b) + expnt b - 1072 in if 0 <=? l then l / 3 else l / 4.
Definition shortest (b : Z) : Z * Z := search (Z.to_nat (first_step b + 325)) b (first_step b).

(** ryu's [write_exponent3] *)
Definition expo (z : Z) : list byte := (if z <? 0 then [x2d] else []) ++ decimal (Z.to_N (Z.abs z)).
Definition zeros (n : Z) : list byte := repeat x30 (Z.to_nat n).
(** ryu's [pretty::format64], the five layouts. *)
Definition layout (d k : Z) : list byte :=
  let ds := decimal (Z.to_N d) in
  let len := Z.of_nat (length ds) in
  let kk := len + k in
  if (0 <=? k) && (kk <=? 16) then ds ++ zeros k ++ [x2e; x30]
  else if (0 <? kk) && (kk <=? 16) then firstn (Z.to_nat kk) ds ++ x2e :: skipn (Z.to_nat kk) ds
  else if (-5 <? kk) && (kk <=? 0) then x30 :: x2e :: zeros (- kk) ++ ds
  else if len =? 1 then ds ++ x65 :: expo (kk - 1)
  else firstn 1 ds ++ x2e :: skipn 1 ds ++ x65 :: expo (kk - 1).
Definition format64 (bits : N) : list byte :=
  let a := Z.of_N (bits mod 2 ^ 63) in
  (if (2 ^ 63 <=? bits)%N then [x2d] else []) ++
  (if a =? 0 then [x30; x2e; x30] else let (d, k) := shortest a in layout d k).

(** ** Reading *)

(** [significand * 10 + digit] as long as it fits [u64]; what is left. *)
Fixpoint take (sig : N) (ds : list byte) : N * list byte :=
  match ds with
  | [] => (sig, [])
  | c :: r => let s := (sig * 10 + (bN c - 48))%N in if (s <? 2 ^ 64)%N then take s r else (sig, ds)
  end.

(** f64 operations on magnitudes. *)
Definition of_u64 (n : Z) : Z := rnd n 1.
Definition fdiv (a b : Z) : Z := let j := expnt a - expnt b in rnd (signif a * two j) (signif b * two (- j)).
Definition fmul (a b : Z) : Z := let j := expnt a + expnt b - 2148 in rnd (signif a * signif b * two j) (two (- j)).
(** The table [POW10] of literals 1e0 .. 1e308. *)
Definition pow10 (k : Z) : Z := rnd (10 ^ k) 1.

(** [f64_from_parts]: the loop, one round per call; [inr] is the result. *)
Definition round_parts (st : Z * Z + option Z) : Z * Z + option Z :=
  match st with
  | inr r => inr r
  | inl (f, e) =>
    if Z.abs e <=? 308 then
      if 0 <=? e then let g := fmul f (pow10 e) in inr (if g <? inf then Some g else None)
      else inr (Some (fdiv f (pow10 (- e))))
    else if f =? 0 then inr (Some f)
    else if 0 <=? e then inr None
    else inl (fdiv f (pow10 308), e + 308)
  end.
(** As many rounds as the exponent allows. *)
Definition from_parts (sig : N) (e : Z) : option Z :=
  match N.iter (Z.to_N (Z.abs e / 308 + 1)) round_parts (inl (of_u64 (Z.of_N sig), e)) with
  | inr r => r
  | inl _ => None
  end.

(** [parse_exponent] and the end of the number.  Simplification: the exponent of
    the digits is unbounded ([i32] in the code, overflown only by numbers of
    gigabytes). *)
Definition clamp (z : Z) : Z := Z.max (- 2 ^ 31) (Z.min (2 ^ 31 - 1) z).
Definition lenZ {A} (l : list A) : Z := Z.of_nat (length l).
Section Reader.
(** [f64_from_parts]; kept as a parameter so that the syntax can be studied apart
    from the arithmetic. *)
Variable parts : N -> Z -> option Z.
Definition with_exponent (sig : N) (start : Z) (s : list byte) : option Z :=
  match s with
  | [] => parts sig start
  | _ :: r =>
    let (pos, r1) := match r with
                     | c :: r1 => if beq c x2b then (true, r1) else if beq c x2d then (false, r1) else (true, r)
                     | [] => (true, r)
                     end in
    let e := Z.of_N (value_of (fst (digits r1))) in
    if 2 ^ 31 <=? e then (if negb (sig =? 0)%N && pos then None else Some 0)
    else parts sig (clamp (if pos : bool then start + e else start - e))
  end.
(** The number [t], without its sign. *)
Definition read_unsigned (t : list byte) : option Z :=
  let (d, s) := digits t in
  let (sig, rest) := take 0 d in
  match s with
  | c :: s1 =>
    if beq c x2e then
      let (fd, s2) := digits s1 in
      let (sig', rest') := take sig fd in
      with_exponent sig' (lenZ rest - (lenZ fd - lenZ rest')) s2
    else with_exponent sig (lenZ rest) s
  | [] => match rest with [] => Some (of_u64 (Z.of_N sig)) | _ => parts sig (lenZ rest) end
  end.
(** serde_json [parse_integer]: the sign. *)
Definition read_signed (t : list byte) : option N :=
  match t with
  | c :: r => if beq c x2d then option_map (fun f => (Z.to_N f + 2 ^ 63)%N) (read_unsigned r)
              else option_map Z.to_N (read_unsigned t)
  | [] => None
  end.
End Reader.
(** The whole reader. *)
Definition read_f64 : list byte -> option N := read_signed from_parts.
