(** * What serde_json reads for any decimal number

    FloatTotal.v is about texts that ryu wrote; here any number text: any number
    of digits, any exponent. *)
From Verif Require Import Base OMap Json JsonText F64 FloatText FloatFacts FloatClose FloatTotal FloatValues.
Open Scope Z_scope.

Set Implicit Arguments.

(** [r] is an answer for the number [n / d]: within five roundings of it, or refused
    because it is within three roundings of 2^1024 or larger. *)
Definition k1 : Z := K - 1.
Definition k2 : Z := K + 1.
Lemma k_pos : 0 < k1 <= k2.
Proof. unfold k1, k2. pose proof K_big. lia. Qed.
Definition answers (r : option Z) (n d : Z) : Prop :=
  match r with
  | Some y => 0 <= y /\ off5 (scaled y) n d
  | None => (2 * 2 ^ 1024 * 2 ^ 1074 - 1) * (k1 * k1 * k1) * d <= 2 * (k2 * k2 * k2) * n * 2 ^ 1074
  end.

Lemma off_weaken F n d : 0 <= F -> 0 <= n -> 0 < d -> off3 F n d -> off5 F n d.
Proof.
  unfold off3, off5, off. fold k1 k2. pose proof k_pos as Kp. pose proof two_pos as Tp. set (T := 2 ^ 1074) in *. clearbody T.
  generalize dependent k2. generalize dependent k1. intros a b AB F0 N D (O1 & O2).
  assert (0 <= a * a * a) by (repeat apply Z.mul_nonneg_nonneg; lia). assert (0 <= b * b * b) by (repeat apply Z.mul_nonneg_nonneg; lia).
  assert (a * a <= b * b) as Sq by (apply Z.mul_le_mono_nonneg; lia). assert (0 <= a * a) as A0 by (apply Z.mul_nonneg_nonneg; lia).
  split.
  - replace ((2 * F - 2) * (a * a * a * a * a) * d) with (a * a * ((2 * F - 2) * (a * a * a) * d)) by ring.
    replace (2 * (b * b * b * b * b) * n * T) with (b * b * (2 * (b * b * b) * n * T)) by ring.
    transitivity (a * a * (2 * (b * b * b) * n * T)).
    + apply Z.mul_le_mono_nonneg_l; auto. etransitivity; [|exact O1]. apply Z.mul_le_mono_nonneg_r; [lia|]. apply Z.mul_le_mono_nonneg_r; lia.
    + apply Z.mul_le_mono_nonneg_r; auto. repeat apply Z.mul_nonneg_nonneg; lia.
  - replace (2 * (a * a * a * a * a) * n * T) with (a * a * (2 * (a * a * a) * n * T)) by ring.
    replace ((2 * F + 2) * (b * b * b * b * b) * d) with (b * b * ((2 * F + 2) * (b * b * b) * d)) by ring.
    transitivity (a * a * ((2 * F + 2) * (b * b * b) * d)).
    + apply Z.mul_le_mono_nonneg_l; auto. etransitivity; [exact O2|]. apply Z.mul_le_mono_nonneg_r; [lia|]. apply Z.mul_le_mono_nonneg_r; lia.
    + apply Z.mul_le_mono_nonneg_r; auto. repeat apply Z.mul_nonneg_nonneg; lia.
Qed.
Lemma off_one F n d : 0 <= F -> 0 <= n -> 0 < d -> off (K - 1) (K + 1) 0 F n d -> off5 F n d.
Proof.
  unfold off5, off. fold k1 k2. pose proof k_pos as Kp. pose proof two_pos as Tp. set (T := 2 ^ 1074) in *. clearbody T.
  generalize dependent k2. generalize dependent k1. intros a b AB F0 N D (O1 & O2).
  assert (0 <= a * a * a * a) as A4 by (repeat apply Z.mul_nonneg_nonneg; lia).
  assert (a * a * a * a <= b * b * b * b) as Sq by (repeat apply Z.mul_le_mono_nonneg; try lia; repeat apply Z.mul_nonneg_nonneg; lia).
  split.
  - replace ((2 * F - 2) * (a * a * a * a * a) * d) with (a * a * a * a * ((2 * F - 2) * a * d)) by ring.
    replace (2 * (b * b * b * b * b) * n * T) with (b * b * b * b * (2 * b * n * T)) by ring.
    transitivity (a * a * a * a * (2 * b * n * T)).
    + apply Z.mul_le_mono_nonneg_l; auto. etransitivity; [|exact O1]. apply Z.mul_le_mono_nonneg_r; [lia|]. apply Z.mul_le_mono_nonneg_r; lia.
    + apply Z.mul_le_mono_nonneg_r; auto. repeat apply Z.mul_nonneg_nonneg; lia.
  - replace (2 * (a * a * a * a * a) * n * T) with (a * a * a * a * (2 * a * n * T)) by ring.
    replace ((2 * F + 2) * (b * b * b * b * b) * d) with (b * b * b * b * ((2 * F + 2) * b * d)) by ring.
    transitivity (a * a * a * a * ((2 * F + 2) * b * d)).
    + apply Z.mul_le_mono_nonneg_l; auto. etransitivity; [exact O2|]. apply Z.mul_le_mono_nonneg_r; [lia|]. apply Z.mul_le_mono_nonneg_r; lia.
    + apply Z.mul_le_mono_nonneg_r; auto. repeat apply Z.mul_nonneg_nonneg; lia.
Qed.
(** Zero is an answer for a tiny number. *)
Lemma off_tiny n d : 0 <= n -> 0 < d -> n * 2 ^ 1074 <= d -> off5 0 n d.
Proof.
  unfold off5, off. fold k1 k2. pose proof k_pos as Kp. pose proof two_pos as Tp. set (T := 2 ^ 1074) in *. clearbody T.
  generalize dependent k2. generalize dependent k1. intros a b AB N D L.
  assert (0 <= a * a * a * a * a) as A5 by (repeat apply Z.mul_nonneg_nonneg; lia).
  assert (a * a * a * a * a <= b * b * b * b * b) as Sq by (repeat apply Z.mul_le_mono_nonneg; try lia; repeat apply Z.mul_nonneg_nonneg; lia).
  assert (0 <= n * T) as NT by (apply Z.mul_nonneg_nonneg; lia).
  set (x := a * a * a * a * a) in *. set (y := b * b * b * b * b) in *. clearbody x y. split.
  - transitivity 0; [|repeat apply Z.mul_nonneg_nonneg; lia]. assert (0 <= x * d) by (apply Z.mul_nonneg_nonneg; lia). lia.
  - replace (2 * x * n * T) with (2 * (x * (n * T))) by ring. replace ((2 * 0 + 2) * y * d) with (2 * (y * d)) by ring.
    apply Z.mul_le_mono_nonneg_l; [lia|]. apply Z.mul_le_mono_nonneg; lia.
Qed.

(** Only the ratio matters. *)
Lemma answers_ratio r n d n' d' : 0 <= n -> 0 < d -> 0 <= n' -> 0 < d' -> n * d' = n' * d -> answers r n d -> answers r n' d'.
Proof.
  intros N D N' D' E. pose proof k_pos as Kp. pose proof two_pos as Tp. destruct r as [y|]; cbn [answers].
  - intros (Y0 & O). split; [exact Y0|]. revert O. unfold off5, off. fold k1 k2. set (T := 2 ^ 1074) in *. clearbody T. set (a := k1 * k1 * k1 * k1 * k1). set (b := k2 * k2 * k2 * k2 * k2). clearbody a b.
    set (F := scaled y). clearbody F. intros (O1 & O2). split.
    + apply (Z.mul_le_mono_pos_r _ _ d); auto. apply (Z.mul_le_mono_pos_r _ _ d') in O1; auto.
      replace ((2 * F - 2) * a * d' * d) with ((2 * F - 2) * a * d * d') by ring. replace (2 * b * n' * T * d) with (2 * b * (n' * d) * T) by ring. rewrite <- E.
      replace (2 * b * (n * d') * T) with (2 * b * n * T * d') by ring. exact O1.
    + apply (Z.mul_le_mono_pos_r _ _ d); auto. apply (Z.mul_le_mono_pos_r _ _ d') in O2; auto.
      replace ((2 * F + 2) * b * d' * d) with ((2 * F + 2) * b * d * d') by ring. replace (2 * a * n' * T * d) with (2 * a * (n' * d) * T) by ring. rewrite <- E.
      replace (2 * a * (n * d') * T) with (2 * a * n * T * d') by ring. exact O2.
  - set (T := 2 ^ 1074) in *. set (c := (2 * 2 ^ 1024 * T - 1) * (k1 * k1 * k1)). set (b := 2 * (k2 * k2 * k2)). clearbody c b T. intros O.
    apply (Z.mul_le_mono_pos_r _ _ d); auto. apply (Z.mul_le_mono_pos_r _ _ d') in O; auto.
    replace (c * d' * d) with (c * d * d') by ring. replace (b * n' * T * d) with (b * (n' * d) * T) by ring. rewrite <- E.
    replace (b * (n * d') * T) with (b * n * T * d') by ring. exact O.
Qed.

(** ** [f64_from_parts] *)

Lemma iter_stay m r : N.iter m round_parts (inr r) = inr r.
Proof. apply N.iter_invariant; [intros x ->; reflexivity|reflexivity]. Qed.
Lemma iter_split sig e : exists m, from_parts sig e =
  match N.iter m round_parts (round_parts (inl (of_u64 (Z.of_N sig), e))) with inr r => r | inl _ => None end.
Proof.
  unfold from_parts. assert (0 <= Z.abs e / 308) by (apply Z.div_pos; lia). exists (Z.to_N (Z.abs e / 308)).
  replace (Z.to_N (Z.abs e / 308 + 1)) with (N.succ (Z.to_N (Z.abs e / 308))) by lia. now rewrite N.iter_succ_r.
Qed.
Lemma round_zero e : round_parts (inl (0, e)) = inr (Some 0).
Proof.
  cbn [round_parts]. destruct (Z.leb_spec (Z.abs e) 308) as [L|L]; [|reflexivity].
  destruct (Z.leb_spec 0 e) as [P|P].
  - pose proof (pow10_pos P) as Q. rewrite fmul_eq by lia. change (scaled 0) with 0. rewrite Z.mul_0_l.
    assert (rnd 0 (2 ^ 1074 * 2 ^ 1074) = 0) as -> by (unfold rnd; reflexivity). reflexivity.
  - pose proof (@pow10_pos (- e) ltac:(lia)) as Q. rewrite fdiv_eq by lia. change (scaled 0) with 0. reflexivity.
Qed.
Lemma parts_zero e : from_parts 0 e = Some 0.
Proof.
  destruct (iter_split 0 e) as (m & ->). change (of_u64 (Z.of_N 0)) with 0. now rewrite round_zero, iter_stay.
Qed.

(** Two divisions by 1e308 are enough to lose any 64-bit significand. *)
Lemma twice_small : fdiv (fdiv (of_u64 (2 ^ 64)) (pow10 308)) (pow10 308) = 0.
Proof. vm_compute. reflexivity. Qed.
Lemma fdiv_mono f g p : 0 <= f <= g -> 0 < p -> fdiv f p <= fdiv g p.
Proof.
  intros L P. rewrite !fdiv_eq by lia. pose proof (@scaled_pos p P). pose proof (@scaled_nonneg f ltac:(lia)). pose proof (@scaled_le f g ltac:(lia) ltac:(lia)).
  apply rnd_mono; try lia. apply Z.mul_le_mono_nonneg_r; lia.
Qed.
Lemma round_down f e : f <> 0 -> e < -308 -> round_parts (inl (f, e)) = inl (fdiv f (pow10 308), e + 308).
Proof.
  intros F E. unfold round_parts. destruct (Z.leb_spec (Z.abs e) 308); [lia|]. destruct (Z.eqb_spec f 0); [contradiction|]. destruct (Z.leb_spec 0 e); [lia|reflexivity].
Qed.
Lemma parts_tiny sig e : (sig < 2 ^ 64)%N -> e < -616 -> from_parts sig e = Some 0.
Proof.
  intros L E. unfold from_parts. set (f := of_u64 (Z.of_N sig)). assert (0 <= f <= of_u64 (2 ^ 64)) as F.
  { split; [apply rnd_nonneg; lia|]. unfold f, of_u64. apply rnd_mono; lia. }
  clearbody f. assert (2 <= Z.abs e / 308) by (apply Z.div_le_lower_bound; lia).
  replace (Z.to_N (Z.abs e / 308 + 1)) with (N.succ (N.succ (N.succ (Z.to_N (Z.abs e / 308 - 2))))) by lia. rewrite !N.iter_succ_r.
  set (m := Z.to_N (Z.abs e / 308 - 2)). clearbody m. assert (0 <= 308) as E308 by lia.
  assert (forall r, match N.iter m round_parts (round_parts (round_parts (inr (Some r)))) with inr q => q | inl _ => None end = Some r) as Done.
  { intros r. cbn [round_parts]. now rewrite iter_stay. }
  destruct (Z.eq_dec f 0) as [->|Nf]; [rewrite round_zero; apply Done|]. rewrite round_down by lia.
  pose proof (@fdiv_le f 308 ltac:(lia) E308) as F1. pose proof (@fdiv_mono f _ _ F (pow10_pos E308)) as Gm.
  destruct (Z.eq_dec (fdiv f (pow10 308)) 0) as [->|Ng]; [rewrite round_zero; cbn [round_parts]; now rewrite iter_stay|].
  rewrite round_down by lia.
  assert (fdiv (fdiv f (pow10 308)) (pow10 308) = 0) as ->.
  { pose proof (@fdiv_le (fdiv f (pow10 308)) 308 ltac:(lia) E308) as F2. pose proof (@fdiv_mono _ _ _ (conj (proj1 F1) Gm) (pow10_pos E308)) as Gm2. rewrite twice_small in Gm2.
    apply Z.le_antisymm; [exact Gm2|exact (proj1 F2)]. }
  now rewrite round_zero, iter_stay.
Qed.

Lemma big_power e : 309 <= e -> 2 ^ 1025 <= 10 ^ e.
Proof.
  intros E. apply Z.le_trans with (10 ^ 309); [apply Z.leb_le; vm_compute; reflexivity|apply Z.pow_le_mono_r; lia].
Qed.
Lemma small_power e : e <= -617 -> 2 ^ 64 * 2 ^ 1074 <= 10 ^ (- e).
Proof.
  intros E. apply Z.le_trans with (10 ^ 617); [apply Z.leb_le; vm_compute; reflexivity|apply Z.pow_le_mono_r; lia].
Qed.

(** Refusing is right from 2^1025 on. *)
Lemma answers_big n d : 0 < d -> 2 ^ 1025 * d <= n -> answers None n d.
Proof.
  intros D L. cbn [answers]. pose proof k_pos as Kp. pose proof two_pos as Tp. set (T := 2 ^ 1074) in *. clearbody T.
  change (2 ^ 1025) with (2 * 2 ^ 1024) in L. set (X := 2 ^ 1024) in *. assert (0 < X) as X0 by (apply Z.pow_pos_nonneg; lia). clearbody X.
  assert (0 <= k1 * k1 * k1 <= k2 * k2 * k2) as C by (split; [repeat apply Z.mul_nonneg_nonneg; lia|repeat apply Z.mul_le_mono_nonneg; try lia; repeat apply Z.mul_nonneg_nonneg; lia]).
  set (a := k1 * k1 * k1) in *. set (b := k2 * k2 * k2) in *. clearbody a b.
  transitivity (a * (2 * X * d) * T).
  - replace ((2 * X * T - 1) * a * d) with (a * (2 * X * d) * T - a * d) by ring. assert (0 <= a * d) by (apply Z.mul_nonneg_nonneg; lia). lia.
  - apply Z.mul_le_mono_nonneg_r; [lia|]. assert (0 <= 2 * X * d) by (repeat apply Z.mul_nonneg_nonneg; lia).
    transitivity (b * n); [apply Z.mul_le_mono_nonneg; lia|]. assert (0 <= b * n) by (apply Z.mul_nonneg_nonneg; lia). lia.
Qed.

Lemma scaled_inf : scaled inf = 2 ^ 1024 * 2 ^ 1074.
Proof. vm_compute. reflexivity. Qed.

Lemma parts_some sig e : -616 <= e < -308 -> from_parts sig e <> None.
Proof.
  intros Er. unfold from_parts. set (f := of_u64 (Z.of_N sig)). clearbody f. assert (1 <= Z.abs e / 308) by (apply Z.div_le_lower_bound; lia).
  replace (Z.to_N (Z.abs e / 308 + 1)) with (N.succ (N.succ (Z.to_N (Z.abs e / 308 - 1)))) by lia. rewrite !N.iter_succ_r.
  set (m := Z.to_N (Z.abs e / 308 - 1)). clearbody m. destruct (Z.eq_dec f 0) as [->|Nf]; [rewrite round_zero; cbn [round_parts]; now rewrite iter_stay|].
  rewrite round_down by lia. set (g := fdiv f (pow10 308)). clearbody g. unfold round_parts at 2.
  destruct (Z.leb_spec (Z.abs (e + 308)) 308); [|lia]. destruct (Z.leb_spec 0 (e + 308)) as [P|P]; [|now rewrite iter_stay]. lia.
Qed.

Theorem parts_answer sig e : (sig < 2 ^ 64)%N -> answers (from_parts sig e) (Z.of_N sig * up e) (dn e).
Proof.
  intros L. pose proof (up_pos e) as Up. pose proof (dn_pos e) as Dp. assert (0 <= Z.of_N sig * up e) as N0 by (apply Z.mul_nonneg_nonneg; lia).
  destruct (N.eq_dec sig 0) as [->|Ns].
  { rewrite parts_zero. cbn [answers]. split; [lia|]. apply off_tiny; [exact N0|exact Dp|]. cbn [Z.of_N]. rewrite !Z.mul_0_l. lia. }
  destruct (Z_lt_le_dec e (-616)) as [Lo|Lo].
  { rewrite parts_tiny by assumption. cbn [answers]. split; [lia|]. apply off_tiny; [exact N0|exact Dp|]. change (scaled 0) with 0 in *.
    assert (up e = 1) as -> by (unfold up; rewrite Z.max_l by lia; reflexivity). assert (dn e = 10 ^ (- e)) as -> by (unfold dn; f_equal; lia).
    eapply Z.le_trans; [|apply small_power; lia]. rewrite Z.mul_1_r. apply Z.mul_le_mono_nonneg_r; [pose proof two_pos|]; lia. }
  destruct (Z_le_gt_dec e 308) as [Hi|Hi].
  - destruct (from_parts sig e) as [y|] eqn:E.
    + destruct (@parts_off sig e y ltac:(lia) ltac:(lia) E) as (Y0 & [O|O]); cbn [answers]; (split; [exact Y0|]).
      * apply off_weaken; auto. now apply scaled_nonneg.
      * exact O.
    + (* refused: the product is not finite *)
      destruct (Z_lt_le_dec e (-308)) as [C|C]; [destruct (@parts_some sig e); [lia|assumption]|].
      destruct (iter_split sig e) as (m & Em). rewrite Em in E. clear Em.
      pose proof (@u64_pos (Z.of_N sig) ltac:(lia)) as Fp. pose proof (scaled_pos Fp) as F0. pose proof (@off_int (Z.of_N sig) ltac:(lia)) as Of. change (rnd (Z.of_N sig) 1) with (of_u64 (Z.of_N sig)) in Of.
      set (f := of_u64 (Z.of_N sig)) in *. clearbody f.
      unfold round_parts at 2 in E. destruct (Z.leb_spec (Z.abs e) 308); [|lia]. destruct (Z.leb_spec 0 e) as [P|P]; [|rewrite iter_stay in E; discriminate].
      cbv zeta in E. rewrite iter_stay in E. destruct (Z.ltb_spec (fmul f (pow10 e)) inf) as [|G]; [discriminate|]. clear E.
      destruct (pow10_off P) as (P1 & M1 & O1). pose proof (@off_mul (scaled f) (Z.of_N sig) _ _ ltac:(lia) ltac:(lia) P1 M1 Of O1) as (D1 & _).
      pose proof (pow10_pos P) as Pe. rewrite <- fmul_eq in D1 by lia.
      assert (up e = 10 ^ e) as Ue by (unfold up; f_equal; lia). assert (dn e = 1) as De by (unfold dn; rewrite Z.max_l by lia; reflexivity). rewrite Ue, De in *.
      pose proof (@scaled_le inf _ ltac:(discriminate) G) as Si. rewrite scaled_inf in Si.
      cbn [answers]. fold k1 k2 in D1. eapply Z.le_trans; [|exact D1]. pose proof k_pos.
      apply Z.mul_le_mono_nonneg_r; [lia|]. apply Z.mul_le_mono_nonneg_r; [repeat apply Z.mul_nonneg_nonneg; lia|].
      rewrite <- Z.mul_assoc. set (x := 2 ^ 1024 * 2 ^ 1074) in *. clearbody x. lia.
  - assert (from_parts sig e = None) as ->.
    { destruct (iter_split sig e) as (m & ->). pose proof (@u64_pos (Z.of_N sig) ltac:(lia)) as Fp.
      unfold round_parts at 2. destruct (Z.leb_spec (Z.abs e) 308); [lia|]. destruct (Z.eqb_spec (of_u64 (Z.of_N sig)) 0); [lia|]. destruct (Z.leb_spec 0 e); [|lia]. now rewrite iter_stay. }
    apply answers_big; [exact Dp|]. assert (dn e = 1) as -> by (unfold dn; rewrite Z.max_l by lia; reflexivity).
    assert (up e = 10 ^ e) as -> by (unfold up; f_equal; lia). pose proof (@big_power e ltac:(lia)) as B. set (x := 2 ^ 1025) in *. clearbody x.
    assert (1 * 10 ^ e <= Z.of_N sig * 10 ^ e) by (apply Z.mul_le_mono_nonneg_r; [apply Z.pow_nonneg|]; lia). lia.
Qed.

(** ** The digits that are kept *)

Lemma val_lin ds a : Z.of_N (val ds a) = Z.of_N a * 10 ^ lenZ ds + Z.of_N (val ds 0).
Proof.
  revert a. induction ds as [|c ds IH]; intros a; [unfold lenZ; cbn; lia|]. unfold val in *. cbn [fold_left]. rewrite IH. rewrite (IH (0 * 10 + _)%N).
  unfold lenZ. cbn [length]. rewrite Nat2Z.inj_succ, Z.pow_succ_r by lia. set (t := 10 ^ Z.of_nat (length ds)). clearbody t. rewrite !N2Z.inj_add, !N2Z.inj_mul. change (Z.of_N 10) with 10. change (Z.of_N 0) with 0. ring.
Qed.
Lemma digit_small c : is_digit c = true -> (bN c - 48 <= 9)%N.
Proof. unfold is_digit. intros D. apply andb_true_iff in D as [D1 D2]. apply N.leb_le in D1, D2. lia. Qed.
Lemma val_less ds : forallb is_digit ds = true -> Z.of_N (val ds 0) < 10 ^ lenZ ds.
Proof.
  induction ds as [|c ds IH]; [reflexivity|]. intros D. cbn [forallb] in D. apply andb_true_iff in D as [Dc D]. specialize (IH D). pose proof (digit_small _ Dc) as C.
  change (val (c :: ds) 0) with (val ds (0 * 10 + (bN c - 48))%N). rewrite val_lin. unfold lenZ in *. cbn [length]. rewrite Nat2Z.inj_succ, Z.pow_succ_r by lia.
  set (t := 10 ^ Z.of_nat (length ds)) in *. assert (Z.of_N (0 * 10 + (bN c - 48)) <= 9) as C9 by lia. assert (Z.of_N (0 * 10 + (bN c - 48)) * t <= 9 * t) by (apply Z.mul_le_mono_nonneg_r; lia). lia.
Qed.

Definition huge : Z := 1844674407370955160.
(** [take] keeps a prefix; if something is left the significand is large. *)
Lemma take_spec ds : forallb is_digit ds = true -> forall sig, (sig < 2 ^ 64)%N ->
  let (s, rest) := take sig ds in
  (s < 2 ^ 64)%N /\ lenZ rest <= lenZ ds /\ forallb is_digit rest = true /\
  Z.of_N (val ds sig) = Z.of_N s * 10 ^ lenZ rest + Z.of_N (val rest 0) /\
  Z.of_N sig * 10 ^ (lenZ ds - lenZ rest) <= Z.of_N s < (Z.of_N sig + 1) * 10 ^ (lenZ ds - lenZ rest) /\
  (rest = [] \/ huge <= Z.of_N s).
Proof.
  induction ds as [|c ds IH]; intros D sig L; cbn [take].
  - unfold lenZ, val. cbn. repeat split; auto; lia.
  - cbn [forallb] in D. pose proof D as D0. apply andb_true_iff in D as [Dc D]. pose proof (digit_small _ Dc) as C. cbv zeta. destruct (N.ltb_spec (sig * 10 + (bN c - 48)) (2 ^ 64)) as [F|F].
    + specialize (IH D _ F). set (sg := (sig * 10 + (bN c - 48))%N) in *. assert (val (c :: ds) sig = val ds sg) as -> by reflexivity. assert (Z.of_N sg = Z.of_N sig * 10 + Z.of_N (bN c - 48)) as Sg by lia. clearbody sg.
      destruct (take sg ds) as [s rest]. destruct IH as (I1 & I2 & I3 & I4 & I5 & I6).
      assert (lenZ (c :: ds) = lenZ ds + 1) as Lc by (unfold lenZ; cbn [length]; lia). rewrite Lc.
      split; [exact I1|]. split; [lia|]. split; [exact I3|]. split; [exact I4|]. split; [|exact I6].
      replace (lenZ ds + 1 - lenZ rest) with (Z.succ (lenZ ds - lenZ rest)) by lia. rewrite Z.pow_succ_r by lia. set (t := 10 ^ (lenZ ds - lenZ rest)) in *.
      assert (0 <= t) as T0 by (apply Z.pow_nonneg; lia). rewrite Sg in I5. clearbody t. set (b := Z.of_N (bN c - 48)) in *. assert (0 <= b <= 9) as B9 by lia. clearbody b.
      assert (0 <= b * t <= 9 * t) by (split; [apply Z.mul_nonneg_nonneg; lia|apply Z.mul_le_mono_nonneg_r; lia]). lia.
    + split; [exact L|]. split; [lia|]. split; [exact D0|]. split; [apply val_lin|]. rewrite Z.sub_diag, Z.pow_0_r. split; [lia|]. right. unfold huge. lia.
Qed.

(** The decimal [V] and the decimal [S0] that is kept of it. *)
Definition kept (S0 V : Z) : Prop := 0 <= S0 /\ 2 ^ 60 * Z.abs (V - S0) <= S0 /\ 2 ^ 60 * Z.abs (V - S0) <= V.
Lemma kept_same V : 0 <= V -> kept V V.
Proof. intros L. unfold kept. rewrite Z.sub_diag. cbn [Z.abs]. lia. Qed.
Lemma kept_between c X S0 V : huge <= c -> 0 < X -> c * X <= S0 < (c + 1) * X -> c * X <= V < (c + 1) * X -> kept S0 V.
Proof.
  unfold huge. intros C X0 A B. unfold kept. assert (1844674407370955160 * X <= c * X) by (apply Z.mul_le_mono_nonneg_r; lia). lia.
Qed.
Lemma kept_digits ip fd : forallb is_digit ip = true -> forallb is_digit fd = true ->
  let (sig, rest) := take 0 ip in let (sig', rest') := take sig fd in
  (sig' < 2 ^ 64)%N /\ lenZ rest <= lenZ ip /\ lenZ rest' <= lenZ fd /\ kept (Z.of_N sig' * 10 ^ (lenZ rest + lenZ rest')) (Z.of_N (val fd (val ip 0))).
Proof.
  intros Di Df. pose proof (@take_spec ip Di 0%N eq_refl) as A. destruct (take 0 ip) as [sig rest]. destruct A as (A1 & A2 & A3 & A4 & A5 & A6).
  pose proof (@take_spec fd Df sig A1) as B. destruct (take sig fd) as [sig' rest']. destruct B as (B1 & B2 & B3 & B4 & B5 & B6).
  split; [exact B1|]. split; [exact A2|]. split; [exact B2|].
  assert (0 <= lenZ rest) as L0 by (unfold lenZ; lia). assert (0 <= lenZ rest') as L1 by (unfold lenZ; lia).
  rewrite val_lin, A4. rewrite val_lin in B4. pose proof (val_less _ A3) as Vr. pose proof (val_less _ B3) as Vr'. pose proof (val_less _ Df) as Vf.
  rewrite Z.pow_add_r by lia. set (s := Z.of_N sig) in *. set (s' := Z.of_N sig') in *. assert (0 <= s) as S0 by (unfold s; lia). assert (0 <= s') as S1 by (unfold s'; lia).
  assert (lenZ fd = (lenZ fd - lenZ rest') + lenZ rest') as Lf by lia. 
  assert (10 ^ lenZ fd = 10 ^ (lenZ fd - lenZ rest') * 10 ^ lenZ rest') as Pf by (rewrite <- Z.pow_add_r by lia; f_equal; lia). rewrite Pf in *.
  set (a := 10 ^ (lenZ fd - lenZ rest')) in *. set (r' := 10 ^ lenZ rest') in *. set (r := 10 ^ lenZ rest) in *.
  assert (0 < a) as Pa by (apply Z.pow_pos_nonneg; lia). assert (0 < r) as Pr by (apply Z.pow_pos_nonneg; lia). assert (0 < r') as Pr' by (apply Z.pow_pos_nonneg; lia).
  set (v := Z.of_N (val rest 0)) in *. set (v' := Z.of_N (val rest' 0)) in *. set (w := Z.of_N (val fd 0)) in *.
  assert (0 <= v) as V0 by (unfold v; lia). assert (0 <= v') as V1 by (unfold v'; lia). assert (0 <= w) as W0 by (unfold w; lia).
  destruct A6 as [->|A6].
  - change (lenZ []) with 0 in r. assert (r = 1) as -> by reflexivity. assert (v = 0) as -> by reflexivity.
    replace ((s * 1 + 0) * (a * r') + w) with (s' * r' + v') by lia. rewrite Z.mul_1_l.
    destruct B6 as [->|B6].
    + assert (r' = 1) as -> by reflexivity. assert (v' = 0) as -> by reflexivity. rewrite Z.add_0_r. apply kept_same. lia.
    + clearbody s s' a r' v' w. apply kept_between with s' r'; lia.
  - clearbody s s' a r r' v v' w. apply kept_between with s (r * (a * r')); [exact A6|repeat apply Z.mul_pos_pos; lia| |].
    + assert (s * a * (r * r') <= s' * (r * r')) by (apply Z.mul_le_mono_nonneg_r; [apply Z.mul_nonneg_nonneg|]; lia).
      assert ((s' + 1) * (r * r') <= (s + 1) * a * (r * r')) by (apply Z.mul_le_mono_nonneg_r; [apply Z.mul_nonneg_nonneg|]; lia).
      assert (0 < r * r') by (apply Z.mul_pos_pos; lia). split; [lia|]. replace ((s + 1) * (r * (a * r'))) with ((s + 1) * a * (r * r')) by ring. lia.
    + assert (0 < a * r') by (apply Z.mul_pos_pos; lia). assert ((v + 1) * (a * r') <= r * (a * r')) by (apply Z.mul_le_mono_nonneg_r; lia). assert (0 <= v * (a * r')) by (apply Z.mul_nonneg_nonneg; lia).
      replace (s * (r * (a * r'))) with (s * r * (a * r')) by ring. replace ((s + 1) * (r * (a * r'))) with (s * r * (a * r') + r * (a * r')) by ring.
      replace ((s * r + v) * (a * r') + w) with (s * r * (a * r') + v * (a * r') + w) by ring. split; lia.
Qed.

(** ** The exponent *)

Lemma up_dn_shift q j : 0 <= j -> up (q + j) * dn q = 10 ^ j * up q * dn (q + j).
Proof.
  intros J. unfold up, dn. rewrite <- !Z.pow_add_r by lia. f_equal. lia.
Qed.

(** The exponent given in the text may exceed 32 bits. *)
Lemma exponent_answer sig start ex : (sig < 2 ^ 64)%N -> exp_part ex -> Z.abs start < 2 ^ 30 ->
  answers (with_exponent from_parts sig start ex) (Z.of_N sig * up (start + exp_val ex)) (dn (start + exp_val ex)).
Proof.
  intros L X S0.
  (* far out, any answer does *)
  assert (forall e, e < -617 -> answers (Some 0) (Z.of_N sig * up e) (dn e)) as Tiny.
  { intros e E. pose proof (@parts_answer sig e L) as A. rewrite parts_tiny in A by lia. exact A. }
  assert (forall e, 309 <= e -> (0 < sig)%N -> answers None (Z.of_N sig * up e) (dn e)) as Big.
  { intros e E Sg. pose proof (@parts_answer sig e L) as A. destruct (from_parts sig e) as [y|] eqn:Ey; [|exact A]. exfalso.
    destruct (iter_split sig e) as (m & Em). rewrite Em in Ey. pose proof (@u64_pos (Z.of_N sig) ltac:(lia)) as Fp.
    unfold round_parts at 2 in Ey. destruct (Z.leb_spec (Z.abs e) 308); [lia|]. destruct (Z.eqb_spec (of_u64 (Z.of_N sig)) 0); [lia|]. destruct (Z.leb_spec 0 e); [|lia]. rewrite iter_stay in Ey. discriminate. }
  assert (forall e, answers (Some 0) (Z.of_N 0 * up e) (dn e)) as Zero.
  { intros e. pose proof (@parts_answer 0%N e eq_refl) as A. rewrite parts_zero in A. exact A. }
  assert (forall (pos : bool) n, 0 <= n -> exp_val ex = (if pos then n else - n) ->
    answers (if 2 ^ 31 <=? n then (if negb (sig =? 0)%N && pos then None else Some 0) else from_parts sig (clamp (if pos then start + n else start - n)))
      (Z.of_N sig * up (start + exp_val ex)) (dn (start + exp_val ex))) as Main.
  { intros pos n N0 ->. destruct (Z.leb_spec (2 ^ 31) n) as [C|C].
    - destruct (N.eqb_spec sig 0) as [->|Ns]; cbn [negb andb].
      + apply Zero.
      + destruct pos; [apply Big; lia|apply Tiny; lia].
    - set (z := if pos then start + n else start - n). replace (start + (if pos then n else - n)) with z by (unfold z; destruct pos; lia).
      destruct (Z_lt_le_dec z (- 2 ^ 31)) as [Lo|Lo]; [|destruct (Z_le_gt_dec z (2 ^ 31 - 1)) as [Hi|Hi]].
      + assert (clamp z = - 2 ^ 31) as -> by (unfold clamp; lia). rewrite parts_tiny by (auto; lia). apply Tiny. lia.
      + assert (clamp z = z) as -> by (unfold clamp; lia). now apply parts_answer.
      + assert (clamp z = 2 ^ 31 - 1) as -> by (unfold clamp; lia). destruct (N.eq_dec sig 0) as [->|Ns]; [rewrite parts_zero; apply Zero|].
        assert (from_parts sig (2 ^ 31 - 1) = None) as ->; [|apply Big; lia].
        destruct (iter_split sig (2 ^ 31 - 1)) as (m & ->). pose proof (@u64_pos (Z.of_N sig) ltac:(lia)) as Fp.
        unfold round_parts at 2. destruct (Z.leb_spec (Z.abs (2 ^ 31 - 1)) 308); [lia|]. destruct (Z.eqb_spec (of_u64 (Z.of_N sig)) 0); [lia|]. destruct (Z.leb_spec 0 (2 ^ 31 - 1)); [|lia]. now rewrite iter_stay. }
  destruct X as [->|(cl & sg & ed & -> & Lc & Sg & Ne & D)].
  - cbn [with_exponent exp_val]. rewrite Z.add_0_r. now apply parts_answer.
  - destruct ed as [|c ed]; [congruence|]. assert (is_digit c = true) as Dc by (cbn in D; now apply andb_true_iff in D).
    assert (digits (c :: ed) = (c :: ed, [])) as Dg by (pose proof (@digits_app (c :: ed) [] D I) as Y; now rewrite app_nil_r in Y).
    set (n := Z.of_N (value_of (c :: ed))) in *. assert (0 <= n) as N0 by (unfold n; lia).
    unfold with_exponent. destruct Sg as [->|[->| ->]]; cbn [app] in Main |- *.
    + cbn [exp_val] in Main |- *. rewrite (digit_not_minus _ Dc), (digit_not_plus _ Dc) in Main |- *. rewrite Dg. cbn [fst]. fold n in Main |- *. exact (Main true n N0 eq_refl).
    + cbn [exp_val] in Main |- *. change (beq x2b x2d) with false in *. change (beq x2b x2b) with true in *. cbv iota in Main |- *. rewrite Dg. cbn [fst]. fold n in Main |- *. exact (Main true n N0 eq_refl).
    + cbn [exp_val] in Main |- *. change (beq x2d x2d) with true in *. change (beq x2d x2b) with false. cbv iota in Main |- *. rewrite Dg. cbn [fst]. fold n in Main |- *. exact (Main false n N0 eq_refl).
Qed.

(** ** The whole number, without its sign *)

(** The decimal value is [V * 10^q]. *)
Definition digits_of (fr : list byte) : list byte := tl fr.
Lemma frac_digits fr : frac_part fr -> forallb is_digit (tl fr) = true.
Proof. intros [->|(fd & -> & _ & D)]; [reflexivity|exact D]. Qed.
Theorem unsigned_answer ip fr ex : int_part ip -> frac_part fr -> exp_part ex -> lenZ (ip ++ fr ++ ex) < 2 ^ 30 ->
  exists S0, kept S0 (Z.of_N (val (tl fr) (val ip 0))) /\
    answers (read_unsigned from_parts (ip ++ fr ++ ex)) (S0 * up (exp_val ex - lenZ (tl fr))) (dn (exp_val ex - lenZ (tl fr))).
Proof.
  intros I F X Ll. pose proof (frac_digits F) as Df. pose proof I as (z & more & Ei & Di & Zi).
  pose proof (@kept_digits ip (tl fr) Di Df) as Kd. unfold read_unsigned.
  assert (match ex with b :: _ => is_digit b = false /\ beq b x2e = false | [] => True end) as Xr.
  { destruct X as [->|(cl & sg & ed & -> & Lc & _)]; [exact Logic.I|destruct (exp_letter Lc) as (? & ? & _); split; assumption]. }
  assert (digits (ip ++ fr ++ ex) = (ip, fr ++ ex)) as ->.
  { apply digits_app; auto. destruct F as [->|(fd & -> & _)]; [|reflexivity]. cbn [app]. destruct ex; tauto. }
  destruct (take 0 ip) as [sig rest] eqn:E0. destruct (take sig (tl fr)) as [sig' rest'] eqn:E1. destruct Kd as (Ls & L1 & L2 & Kp).
  assert (lenZ (ip ++ fr ++ ex) = lenZ ip + lenZ fr + lenZ ex) as Len by (unfold lenZ; rewrite !app_length; lia).
  assert (0 <= lenZ rest) as P1 by (unfold lenZ; lia). assert (0 <= lenZ rest') as P2 by (unfold lenZ; lia). assert (0 <= lenZ ex) as P3 by (unfold lenZ; lia).
  assert (lenZ (tl fr) <= lenZ fr) as P4 by (unfold lenZ; destruct fr; cbn [tl length]; lia).
  assert (lenZ (tl fr) = 0 \/ fr <> []) as P5 by (destruct fr; [left; reflexivity|right; discriminate]).
  exists (Z.of_N sig' * 10 ^ (lenZ rest + lenZ rest')). split; [exact Kp|]. clear Kp.
  set (q := exp_val ex - lenZ (tl fr)). set (j := lenZ rest + lenZ rest').
  assert (forall r, answers r (Z.of_N sig' * up (q + j)) (dn (q + j)) -> answers r (Z.of_N sig' * 10 ^ j * up q) (dn q)) as Conv.
  { intros r. pose proof (up_pos (q + j)). pose proof (dn_pos (q + j)). pose proof (up_pos q). pose proof (dn_pos q).
    assert (0 <= 10 ^ j) by (apply Z.pow_nonneg; unfold j; lia). assert (0 <= Z.of_N sig') by lia. apply answers_ratio; auto; try (repeat apply Z.mul_nonneg_nonneg; lia).
    rewrite <- Z.mul_assoc, (@up_dn_shift q j) by (unfold j; lia). ring. }
  apply Conv. clear Conv. destruct F as [->|(fd & -> & Nf & _)].
  - cbn [app tl] in *. cbn [take] in E1. injection E1 as <- <-. change (lenZ []) with 0 in *. replace (q + j) with (lenZ rest + exp_val ex) by (unfold q, j; lia).
    destruct ex as [|x ex].
    + cbn [exp_val]. rewrite Z.add_0_r. destruct rest as [|c rest]; [|apply parts_answer; exact Ls].
      change (lenZ []) with 0. cbn [answers]. split; [apply rnd_nonneg; lia|]. change (up 0) with 1. change (dn 0) with 1. rewrite Z.mul_1_r.
      destruct (N.eq_dec sig 0) as [->|Ns]; [apply off_tiny; lia|]. apply off_one; [apply scaled_nonneg, rnd_nonneg; lia|lia|lia|]. apply off_int. lia.
    + rewrite (proj2 Xr). apply exponent_answer; [exact Ls|exact X|]. unfold lenZ in *. cbn [length] in *. lia.
  - cbn [app tl] in *. rewrite beq_refl. assert (digits (fd ++ ex) = (fd, ex)) as ->.
    { apply digits_app; auto. destruct ex; tauto. }
    rewrite E1. replace (q + j) with (lenZ rest - (lenZ fd - lenZ rest') + exp_val ex) by (unfold q, j; lia).
    apply exponent_answer; [exact Ls|exact X|]. unfold lenZ in *. cbn [length] in *. lia.
Qed.

(** *** In plain terms *)

(** [F] (scaled) is [n / d] up to 2^-49 of it and twice the smallest positive
    double. *)
Definition within (F n d : Z) : Prop := 2 ^ 49 * Z.abs (F * d - n * 2 ^ 1074) <= n * 2 ^ 1074 + 2 * 2 ^ 49 * d.
(** [n / d] is at least 2^1024 up to 2^-50 of it. *)
Definition excessive (n d : Z) : Prop := (2 ^ 50 - 1) * 2 ^ 1024 * d <= 2 ^ 50 * n.

Lemma answers_plain r S0 V u d : kept S0 V -> 0 < u -> 0 < d -> answers r (S0 * u) d ->
  match r with Some y => within (scaled y) (V * u) d | None => excessive (V * u) d end.
Proof.
  intros (S1 & K1 & K2) U D. pose proof two_pos as Tp.
  assert (0 <= S0 * u * 2 ^ 1074) as X0 by (apply Z.mul_nonneg_nonneg; [apply Z.mul_nonneg_nonneg; lia|apply Z.lt_le_incl; exact Tp]).
  assert (2 ^ 60 * Z.abs (V * u * 2 ^ 1074 - S0 * u * 2 ^ 1074) <= V * u * 2 ^ 1074) as Kv.
  { rewrite <- !Z.mul_assoc, <- Z.mul_sub_distr_r, Z.abs_mul, (Z.abs_eq (u * _)) by (apply Z.mul_nonneg_nonneg; lia). rewrite Z.mul_assoc. apply Z.mul_le_mono_nonneg_r; [apply Z.mul_nonneg_nonneg; lia|exact K2]. }
  destruct r as [y|]; cbn [answers].
  - intros (Y0 & O1 & O2). fold k1 k2 in O1, O2. unfold within. pose proof (scaled_nonneg Y0) as F0. set (F := scaled y) in *. clearbody F.
    set (A := k1 * k1 * k1 * k1 * k1) in *. set (B := k2 * k2 * k2 * k2 * k2) in *.
    replace ((2 * F - 2) * A * d) with (2 * A * (F * d - d)) in O1 by ring. replace (2 * B * (S0 * u) * 2 ^ 1074) with (2 * B * (S0 * u * 2 ^ 1074)) in O1 by ring.
    replace ((2 * F + 2) * B * d) with (2 * B * (F * d + d)) in O2 by ring. replace (2 * A * (S0 * u) * 2 ^ 1074) with (2 * A * (S0 * u * 2 ^ 1074)) in O2 by ring.
    assert (0 <= F * d) as Fd by (apply Z.mul_nonneg_nonneg; lia).
    set (x := S0 * u * 2 ^ 1074) in *. set (v := V * u * 2 ^ 1074) in *. set (f := F * d) in *. clearbody x v f. clear - O1 O2 Kv X0 Fd D.
    vm_compute in A, B. subst A B. change (2 ^ 60) with 1152921504606846976 in Kv. change (2 ^ 49) with 562949953421312. lia.
  - unfold excessive. intros O. set (A := k1 * k1 * k1) in *. set (B := k2 * k2 * k2) in *.
    replace (2 * B * (S0 * u) * 2 ^ 1074) with (2 * B * (S0 * u * 2 ^ 1074)) in O by ring.
    replace ((2 * 2 ^ 1024 * 2 ^ 1074 - 1) * A * d) with (2 * A * (2 ^ 1024 * d * 2 ^ 1074) - A * d) in O by ring.
    apply (Z.mul_le_mono_pos_r _ _ (2 ^ 1074)); [lia|].
    replace ((2 ^ 50 - 1) * 2 ^ 1024 * d * 2 ^ 1074) with ((2 ^ 50 - 1) * (2 ^ 1024 * d * 2 ^ 1074)) by ring.
    rewrite <- (Z.mul_assoc (2 ^ 50)). set (x := S0 * u * 2 ^ 1074) in *. set (v := V * u * 2 ^ 1074) in *.
    assert (2 ^ 100 * d <= 2 ^ 1024 * d * 2 ^ 1074) as Dl.
    { rewrite (Z.mul_comm (2 ^ 1024)), <- Z.mul_assoc, <- Z.pow_add_r by lia. rewrite Z.mul_comm. apply Z.mul_le_mono_nonneg_l; [lia|]. apply Z.pow_le_mono_r; lia. }
    set (w := 2 ^ 1024 * d * 2 ^ 1074) in *. clearbody w v x. clear - O Kv X0 D Dl.
    vm_compute in A, B. subst A B. change (2 ^ 60) with 1152921504606846976 in Kv. change (2 ^ 50) with 1125899906842624. change (2 ^ 100) with 1267650600228229401496703205376 in Dl. lia.
Qed.

(** ** Numbers in a text *)

Lemma read_number s : (match s with c :: _ => beq c x2d || is_digit c = true | [] => False end) ->
  read read_f64 s = match number read_f64 s with Some (v, r) => match skip r with [] => Some v | _ => None end | None => None end.
Proof.
  destruct s as [|c s]; [intros []|]. intros C. unfold read. replace (2 * length (c :: s) + 2)%nat with (S (2 * length (c :: s) + 1)) by lia.
  cbn [value]. destruct (@number_start c C) as (A1 & A2 & A3 & A4 & A5 & A6 & A7 & _). rewrite (skip_id _ _ A1). now rewrite A2, A3, A4, A5, A6, A7, C.
Qed.

Lemma number_int fread (neg : bool) ip r : int_part ip -> stops r ->
  number fread ((if neg then [x2d] else []) ++ ip ++ r) =
    (let n := value_of ip in
     if neg then if (0 <? n)%N && (n <=? 2 ^ 63)%N then Some (RNeg (- Z.of_N n), r) else floating fread ([x2d] ++ ip) r
     else if (n <? 2 ^ 64)%N then Some (RPos n, r) else floating fread ip r).
Proof.
  intros (z & more & Ei & Di & Zi) R. unfold number.
  assert (match (if neg then [x2d] else []) ++ ip ++ r with
          | [] => (false, (if neg then [x2d] else []) ++ ip ++ r)
          | b :: r0 => if beq b x2d then (true, r0) else (false, (if neg then [x2d] else []) ++ ip ++ r) end = (neg, ip ++ r)) as ->.
  { destruct neg; [reflexivity|]. subst ip. cbn [app]. cbn [forallb] in Di. apply andb_true_iff in Di as [Dz _]. now rewrite (digit_not_minus _ Dz). }
  assert (match r with b :: _ => is_digit b = false /\ beq b x2e = false | [] => True end) as Xr by (destruct r; cbn in R |- *; tauto).
  rewrite (@digits_app ip r Di) by (destruct r; tauto). rewrite Ei at 1. cbv iota beta.
  assert (beq z x30 && negb match more with [] => true | _ :: _ => false end = false) as ->.
  { destruct (beq z x30); [|reflexivity]. now rewrite (Zi eq_refl). }
  assert (fraction r = Some ([], r)) as -> by (destruct r as [|b t]; [reflexivity|unfold fraction; now rewrite (proj2 Xr)]).
  rewrite no_exponent by exact R. rewrite !app_nil_r. destruct neg; reflexivity.
Qed.

(** *** Any number *)
Theorem number_answer (neg : bool) ip fr ex : int_part ip -> frac_part fr -> exp_part ex -> lenZ (ip ++ fr ++ ex) < 2 ^ 30 ->
  let V := Z.of_N (value_of (ip ++ tl fr)) in
  let q := exp_val ex - lenZ (tl fr) in
  match read read_f64 ((if neg then [x2d] else []) ++ ip ++ fr ++ ex) with
  | Some (RPos n) => neg = false /\ fr = [] /\ ex = [] /\ Z.of_N n = V
  | Some (RNeg z) => neg = true /\ fr = [] /\ ex = [] /\ z = - V
  | Some (RFlt b) => negative b = neg /\ within (scaled (magnitude_of b)) (V * up q) (dn q)
  | Some _ => False
  | None => excessive (V * up q) (dn q)
  end.
Proof.
  intros I F X L V q.
  assert (stops []) as St by exact Logic.I.
  assert (value_of (ip ++ tl fr) = val (tl fr) (val ip 0)) as Ev by (unfold value_of; rewrite fold_left_app; reflexivity).
  assert (match (if neg then [x2d] else []) ++ ip ++ fr ++ ex with c :: _ => beq c x2d || is_digit c = true | [] => False end) as Hs.
  { destruct neg; [reflexivity|]. destruct I as (z & more & -> & D & _). cbn [app]. cbn [forallb] in D. apply andb_true_iff in D as [-> _]. apply orb_true_r. }
  rewrite (read_number _ Hs). clear Hs.
  (* what a float is read as *)
  assert (match read_f64 ((if neg then [x2d] else []) ++ ip ++ fr ++ ex) with
          | Some b => negative b = neg /\ within (scaled (magnitude_of b)) (V * up q) (dn q)
          | None => excessive (V * up q) (dn q) end) as Fl.
  { destruct (@unsigned_answer ip fr ex I F X L) as (S0 & Kp & A). rewrite <- Ev in Kp. fold V q in Kp, A.
    pose proof (answers_plain _ Kp (up_pos q) (dn_pos q) A) as P.
    assert (forall y, read_unsigned from_parts (ip ++ fr ++ ex) = Some y -> 0 <= y < inf) as Fin by (intros y; apply unsigned_fine).
    assert (read_f64 ((if neg then [x2d] else []) ++ ip ++ fr ++ ex) =
      option_map (fun f => (Z.to_N f + (if neg then 2 ^ 63 else 0))%N) (read_unsigned from_parts (ip ++ fr ++ ex))) as ->.
    { unfold read_f64, read_signed. destruct neg; [reflexivity|]. destruct I as (z & more & -> & D & _). cbn [app]. cbn [forallb] in D. apply andb_true_iff in D as [Dz _].
      rewrite (digit_not_minus _ Dz). destruct (read_unsigned _ _); cbn [option_map]; [now rewrite N.add_0_r|reflexivity]. }
    destruct (read_unsigned from_parts (ip ++ fr ++ ex)) as [y|]; cbn [option_map]; [|exact P].
    destruct (Fin y eq_refl) as [Y0 Y1]. assert (inf < 2 ^ 63) as Il by reflexivity. set (w := Z.to_N y). assert (w < 2 ^ 63)%N as W by (unfold w; lia).
    assert (magnitude_of (w + (if neg then 2 ^ 63 else 0)) = y) as ->.
    { unfold magnitude_of. destruct neg; [replace (w + 2 ^ 63)%N with (w + 1 * 2 ^ 63)%N by lia; rewrite N.mod_add by lia|rewrite N.add_0_r]; rewrite N.mod_small by lia; unfold w; lia. }
    split; [|exact P]. unfold negative. destruct neg; [apply N.leb_le; lia|apply N.leb_gt; lia]. }
  assert ((fr = [] /\ ex = []) \/ fr ++ ex <> []) as [[-> ->]|Ne].
  { destruct fr; [destruct ex; [left; split; reflexivity|right; discriminate]|right; discriminate]. }
  - pose proof (@number_int read_f64 neg ip [] I St) as Nn. cbn [app] in Nn, Fl |- *. rewrite !app_nil_r in Nn, Fl |- *. rewrite Nn. clear Nn. cbv zeta. cbn [tl] in V. unfold V in *. clear V. rewrite app_nil_r in *.
    assert (forall t, match read_f64 t with
            | Some b => negative b = neg /\ within (scaled (magnitude_of b)) (Z.of_N (value_of ip) * up q) (dn q)
            | None => excessive (Z.of_N (value_of ip) * up q) (dn q) end ->
          match match floating read_f64 t [] with Some (v, r) => match skip r with [] => Some v | _ => None end | None => None end with
          | Some (RPos n) => neg = false /\ @nil byte = [] /\ @nil byte = [] /\ Z.of_N n = Z.of_N (value_of ip)
          | Some (RNeg z) => neg = true /\ @nil byte = [] /\ @nil byte = [] /\ z = - Z.of_N (value_of ip)
          | Some (RFlt b) => negative b = neg /\ within (scaled (magnitude_of b)) (Z.of_N (value_of ip) * up q) (dn q)
          | Some _ => False
          | None => excessive (Z.of_N (value_of ip) * up q) (dn q)
          end) as G.
    { intros t H. unfold floating. destruct (read_f64 t); cbn [skip]; exact H. }
    destruct neg.
    + destruct ((0 <? value_of ip)%N && (value_of ip <=? 2 ^ 63)%N); [cbn [skip]; repeat split|]. apply G. exact Fl.
    + destruct (value_of ip <? 2 ^ 64)%N; [cbn [skip]; repeat split|]. apply G. exact Fl.
  - pose proof (@number_shape read_f64 neg ip fr ex [] I F X Ne St) as Nn. rewrite !app_nil_r in Nn. rewrite Nn.
    unfold floating. destruct (read_f64 _) as [b|]; cbn [skip]; exact Fl.
Qed.
