(** * C31, C57: the number a 64-bit float pattern stands for is IEEE 754's

    The comparison (Json.v) and the text (F64.v) use the value of a pattern times
    [2^1074].  Here that value is stated from the standard (IEEE 754-2019, section
    3.4): a sign bit, 11 bits of exponent and 52 bits of significand. *)
From Verif Require Import Base Json JsonOrder JsonFacts F64 FloatValues MemFacts PropsData.

Set Implicit Arguments.
Local Open Scope Z_scope.

(** The pattern with sign [s], biased exponent [e] and trailing significand [t]. *)
Definition pattern (s : bool) (e t : N) : N := ((if s then 2 ^ 63 else 0) + e * 2 ^ 52 + t)%N.
Definition sgn (s : bool) : Z := if s then -1 else 1.

(** [x] is [n / 2^k]; all the rationals below are of this form. *)
Definition dyadic (x_scaled n k : Z) : Prop := x_scaled * 2 ^ k = n * 2 ^ 1074.

(** IEEE 754: [(-1)^s * 2^-1022 * (t / 2^52)] for exponent zero, otherwise
    [(-1)^s * 2^(e - 1023) * (1 + t / 2^52)]. *)
Definition ieee (s : bool) (e t : N) (x_scaled : Z) : Prop :=
  if (e =? 0)%N then dyadic x_scaled (sgn s * Z.of_N t) (1022 + 52)
  else dyadic x_scaled (sgn s * (2 ^ 52 + Z.of_N t) * 2 ^ Z.of_N e) (1023 + 52).

Lemma split_pattern s e t : (e < 2048)%N -> (t < 2 ^ 52)%N ->
  (pattern s e t / 2 ^ 63 mod 2 = if s then 1 else 0)%N /\ ((pattern s e t / 2 ^ 52) mod 2 ^ 11 = e)%N /\ (pattern s e t mod 2 ^ 52 = t)%N /\
  (pattern s e t mod 2 ^ 63 = e * 2 ^ 52 + t)%N.
Proof.
  intros E T. unfold pattern. assert (e * 2 ^ 52 + t < 2 ^ 63)%N as B by lia.
  assert (((if s then 2 ^ 63 else 0) + e * 2 ^ 52 + t) = (e * 2 ^ 52 + t) + (if s then 1 else 0) * 2 ^ 63)%N as A by (destruct s; lia).
  assert (((if s then 2 ^ 63 else 0) + e * 2 ^ 52 + t) = t + ((if s then 2 ^ 11 else 0) + e) * 2 ^ 52)%N as A' by (destruct s; lia).
  conj.
  - rewrite A, N.div_add, N.div_small, N.add_0_l by lia. destruct s; reflexivity.
  - rewrite A', N.div_add, N.div_small, N.add_0_l by lia. destruct s.
    + replace (2 ^ 11 + e)%N with (e + 1 * 2 ^ 11)%N by lia. rewrite N.mod_add, N.mod_small by lia. reflexivity.
    + rewrite N.add_0_l, N.mod_small by lia. reflexivity.
  - rewrite A', N.mod_add, N.mod_small by lia. reflexivity.
  - rewrite A, N.mod_add, N.mod_small by lia. reflexivity.
Qed.

(** Every pattern is one of these. *)
Theorem C31_patterns bits : (bits < 2 ^ 64)%N -> exists s e t, (e < 2048)%N /\ (t < 2 ^ 52)%N /\ bits = pattern s e t.
Proof.
  intros B. pose proof (N.div_mod bits (2 ^ 63) ltac:(lia)) as D1. pose proof (N.mod_lt bits (2 ^ 63) ltac:(lia)) as M1.
  set (r := (bits mod 2 ^ 63)%N) in *. pose proof (N.div_mod r (2 ^ 52) ltac:(lia)) as D2. pose proof (N.mod_lt r (2 ^ 52) ltac:(lia)) as M2.
  assert (bits / 2 ^ 63 < 2)%N as L by (apply N.div_lt_upper_bound; lia).
  exists (negb (bits / 2 ^ 63 =? 0)%N), (r / 2 ^ 52)%N, (r mod 2 ^ 52)%N. conj; [apply N.div_lt_upper_bound; lia|assumption|].
  unfold pattern. destruct (N.eqb_spec (bits / 2 ^ 63) 0); cbn [negb]; lia.
Qed.

(** What values are compared by. *)
Theorem C31_float_value s e t : (e < 2047)%N -> (t < 2 ^ 52)%N -> ieee s e t (as_f64 (RFlt (pattern s e t))).
Proof.
  intros E T. destruct (@split_pattern s e t ltac:(lia) T) as (A & B & C & _). cbn [as_f64]. unfold f64_scaled. rewrite A, B, C. unfold ieee, dyadic, sgn.
  assert ((if ((if s then 1 else 0) =? 0)%N then Z.of_N (if (e =? 0)%N then t else ((2 ^ 52 + t) * 2 ^ (e - 1))%N)
           else - Z.of_N (if (e =? 0)%N then t else ((2 ^ 52 + t) * 2 ^ (e - 1))%N)) =
          (if s then -1 else 1) * Z.of_N (if (e =? 0)%N then t else ((2 ^ 52 + t) * 2 ^ (e - 1))%N)) as -> by (generalize (Z.of_N (if (e =? 0)%N then t else ((2 ^ 52 + t) * 2 ^ (e - 1))%N)); intros z; destruct s; cbn [N.eqb]; lia).
  destruct (N.eqb_spec e 0) as [->|N0].
  - change (1022 + 52) with 1074. reflexivity.
  - change (1023 + 52) with (1 + 1074). rewrite Z.pow_add_r by lia. rewrite N2Z.inj_mul, N2Z.inj_add, (fun k => N2Z.inj_pow 2 (k - 1)), (N2Z.inj_sub _ 1) by lia.
    assert (2 ^ Z.of_N e = 2 * 2 ^ (Z.of_N e - 1)) as -> by (rewrite <- Z.pow_succ_r by lia; f_equal; lia).
    change (Z.of_N 2) with 2. change (Z.of_N 1) with 1. change (Z.of_N (2 ^ 52)) with (2 ^ 52). generalize (2 ^ 1074) (2 ^ (Z.of_N e - 1)). intros x y. ring.
Qed.

(** What texts are written from and read to. *)
Theorem C57_float_value s e t : (e < 2047)%N -> (t < 2 ^ 52)%N ->
  ieee s e t (sgn (negative (pattern s e t)) * scaled (magnitude_of (pattern s e t))).
Proof.
  intros E T. destruct (@split_pattern s e t ltac:(lia) T) as (_ & _ & _ & D). unfold magnitude_of. rewrite D.
  assert (negative (pattern s e t) = s) as ->.
  { unfold negative, pattern. destruct s; [apply N.leb_le|apply N.leb_gt]; lia. }
  assert (scaled (Z.of_N (e * 2 ^ 52 + t)) = Z.of_N (if (e =? 0)%N then t else ((2 ^ 52 + t) * 2 ^ (e - 1))%N)) as ->.
  { unfold scaled. change top with (2 ^ 52). replace (Z.of_N (e * 2 ^ 52 + t)) with (Z.of_N t + Z.of_N e * 2 ^ 52) by lia.
    rewrite Z.div_add, Z.mod_add, Z.div_small, Z.mod_small, Z.add_0_l by lia. destruct (N.eqb_spec e 0) as [->|N0]; [reflexivity|].
    destruct (Z.eqb_spec (Z.of_N e) 0); [lia|]. rewrite N2Z.inj_mul, N2Z.inj_add, (fun k => N2Z.inj_pow 2 (k - 1)), (N2Z.inj_sub _ 1) by lia. reflexivity. }
  pose proof (@C31_float_value s e t E T) as V. cbn [as_f64] in V. unfold f64_scaled in V. destruct (@split_pattern s e t ltac:(lia) T) as (A & B & C & _).
  rewrite A, B, C in V. replace (sgn s * _) with (if ((if s then 1 else 0) =? 0)%N then Z.of_N (if (e =? 0)%N then t else ((2 ^ 52 + t) * 2 ^ (e - 1))%N)
           else - Z.of_N (if (e =? 0)%N then t else ((2 ^ 52 + t) * 2 ^ (e - 1))%N)); [exact V|]. unfold sgn. generalize (Z.of_N (if (e =? 0)%N then t else ((2 ^ 52 + t) * 2 ^ (e - 1))%N)). intros z. destruct s; cbn [N.eqb]; lia.
Qed.

(** Floats are ordered as their values, and non-negative ones also as their
    patterns (so that no two of them have the same value). *)
Theorem C31_floats a b x y : jraw a = RFlt x -> jraw b = RFlt y ->
  json_cmp a b = Some (Z.compare (as_f64 (RFlt x)) (as_f64 (RFlt y))) /\
  ((x < 2 ^ 63)%N -> (y < 2 ^ 63)%N -> json_cmp a b = Some (N.compare x y)).
Proof.
  intros Ea Eb. assert (json_cmp a b = Some (Z.compare (as_f64 (RFlt x)) (as_f64 (RFlt y)))) as E.
  { apply C31_order_partial. rewrite Ea, Eb. apply vo_float; [reflexivity|reflexivity|now left]. }
  split; [exact E|]. intros Bx By. rewrite E. f_equal.
  assert (forall z, (z < 2 ^ 63)%N -> as_f64 (RFlt z) = scaled (Z.of_N z)) as V.
  { intros z Bz. cbn [as_f64]. unfold f64_scaled, scaled. change top with (2 ^ 52). rewrite (N.div_small z (2 ^ 63)) by assumption. cbn [N.modulo N.eqb].
    assert (z / 2 ^ 52 < 2 ^ 11)%N as L by (apply N.div_lt_upper_bound; lia). rewrite (N.mod_small _ _ L).
    replace (2 ^ 52) with (Z.of_N (2 ^ 52)) by reflexivity. rewrite <- N2Z.inj_div, <- N2Z.inj_mod by lia.
    change (0 mod 2 =? 0)%N with true. cbn iota.
    destruct (N.eqb_spec (z / 2 ^ 52) 0) as [->|N0]; [reflexivity|]. destruct (Z.eqb_spec (Z.of_N (z / 2 ^ 52)) 0); [lia|].
    rewrite N2Z.inj_mul, N2Z.inj_add, (fun k => N2Z.inj_pow 2 (k - 1)), (N2Z.inj_sub _ 1) by lia. reflexivity. }
  rewrite !V by assumption. rewrite <- (N2Z.inj_compare x y). destruct (Z.compare_spec (Z.of_N x) (Z.of_N y)) as [->|G|G].
  - apply Z.compare_refl.
  - apply Z.compare_lt_iff. apply scaled_mono; lia.
  - apply Z.compare_gt_iff. apply scaled_mono; lia.
Qed.

(** Three patterns: 1.5, the smallest float, and minus the largest subnormal. *)
Example C31_float_value_case :
  ieee false 1023 (2 ^ 51) (as_f64 (RFlt 4609434218613702656)) /\ as_f64 (RFlt 4609434218613702656) * 2 = 3 * 2 ^ 1074 /\
  as_f64 (RFlt 1) = 1 /\ as_f64 (RFlt 9227875636482146303) = - (2 ^ 52 - 1) /\ as_f64 (RFlt 4503599627370496) = 2 ^ 52.
Proof.
  split; [exact (@C31_float_value false 1023 (2 ^ 51) eq_refl eq_refl)|]. split; [vm_compute; reflexivity|]. split; [reflexivity|]. split; reflexivity.
Qed.
