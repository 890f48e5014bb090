(** * More facts about FloatText.v: 17 digits, the text determines the float, the
    reader always answers, and how far off it can be *)
From Verif Require Import Base OMap Json JsonText F64 FloatText FloatFacts.
Open Scope Z_scope.

Set Implicit Arguments.

(** ** At most 17 digits *)

(** The gap to the next double is at least 2^-53 of the value. *)
Lemma gap b b' : 0 < b -> 0 <= b' -> b' <> b -> scaled b <= 2 * top * Z.abs (scaled b' - scaled b).
Proof.
  intros B B' Ne. assert (0 < top) as T by reflexivity. destruct (Z_lt_le_dec b' b) as [L|L].
  - destruct (@form (b - 1) ltac:(lia)) as (e & m & E & E0 & M & N).
    assert (b = e * top + (m + 1)) as Eb by lia.
    assert (scaled (b - 1) = m * 2 ^ e) as S0 by (rewrite E; apply scaled_enc; lia).
    assert (scaled b = (m + 1) * 2 ^ e) as S1 by (rewrite Eb; apply scaled_enc; lia).
    pose proof (@scaled_le b' (b - 1) B' ltac:(lia)) as Le. pose proof (Z.pow_pos_nonneg 2 e ltac:(lia) E0) as P.
    rewrite Z.abs_neq by lia. assert (2 ^ e <= - (scaled b' - scaled b)) as G by lia. rewrite S1 at 1.
    transitivity (2 * top * 2 ^ e); [apply Z.mul_le_mono_nonneg_r; lia|apply Z.mul_le_mono_nonneg_l; lia].
  - destruct (@form b ltac:(lia)) as (e & m & E & E0 & M & N).
    assert (scaled b = m * 2 ^ e) as S0 by (rewrite E; apply scaled_enc; lia).
    assert (scaled (b + 1) = (m + 1) * 2 ^ e) as S1 by (rewrite E, <- Z.add_assoc; apply scaled_enc; lia).
    pose proof (@scaled_le (b + 1) b' ltac:(lia) ltac:(lia)) as Le. pose proof (Z.pow_pos_nonneg 2 e ltac:(lia) E0) as P.
    rewrite Z.abs_eq by lia. assert (2 ^ e <= scaled b' - scaled b) as G by lia. rewrite S0 at 1.
    transitivity (2 * top * 2 ^ e); [apply Z.mul_le_mono_nonneg_r; lia|apply Z.mul_le_mono_nonneg_l; lia].
Qed.

Lemma close_rounds b n d : 0 < b -> 0 <= n -> 0 < d -> 4 * top * Z.abs (n * 2 ^ 1074 - scaled b * d) < scaled b * d -> rnd n d = b.
Proof.
  intros B N D C. apply rnd_is; auto. split; [lia|]. intros b' B' Ne. cbv zeta. left.
  pose proof (@gap b b' B B' Ne) as G. apply (Z.mul_le_mono_nonneg_r _ _ d) in G; [|lia].
  assert (2 * top * Z.abs (scaled b' - scaled b) * d = 2 * top * Z.abs (scaled b' * d - scaled b * d)) as K.
  { rewrite <- Z.mul_sub_distr_r, Z.abs_mul, (Z.abs_eq d) by lia. ring. }
  rewrite K in G. change (4 * top) with (2 * (2 * top)) in C. set (c := 2 * top) in *. assert (0 < c) as C0 by reflexivity. clearbody c.
  set (x := scaled b * d) in *. set (y := scaled b' * d) in *. set (v := n * 2 ^ 1074) in *. clearbody x y v.
  apply (Z.mul_lt_mono_pos_l c); auto.
  assert (c * Z.abs (y - x) <= c * Z.abs (v - x) + c * Z.abs (v - y)) by (rewrite <- Z.mul_add_distr_l; apply Z.mul_le_mono_nonneg_l; lia). lia.
Qed.

Lemma up_dn k : up (k + 1) * dn k = 10 * up k * dn (k + 1).
Proof.
  unfold up, dn. destruct (Z_lt_le_dec k 0) as [L|L].
  - rewrite (Z.max_l 0 k), (Z.max_l 0 (k + 1)), (Z.max_r 0 (- k)), (Z.max_r 0 (- (k + 1))) by lia.
    replace (- k) with (Z.succ (- (k + 1))) by lia. rewrite Z.pow_succ_r by lia. ring.
  - rewrite (Z.max_r 0 k), (Z.max_r 0 (k + 1)), (Z.max_l 0 (- k)), (Z.max_l 0 (- (k + 1))) by lia.
    rewrite (Z.pow_add_r 10 k 1) by lia. ring.
Qed.

Lemma shortest_17 b d k : 0 < b < inf -> shortest b = (d, k) -> d < 10 ^ 17.
Proof.
  intros B E. destruct (shortest_spec B E) as (D0 & Od & Mx & Kb & Dq). destruct (Z_lt_le_dec d (10 ^ 17)) as [|G]; auto. exfalso.
  pose proof (up_pos k) as Up. pose proof (dn_pos k) as Dp. pose proof (up_pos (k + 1)) as Up1. pose proof (dn_pos (k + 1)) as Dp1. pose proof two_pos as Tp.
  set (T := 2 ^ 1074) in *. set (s := scaled b) in *. assert (0 < s) as Sp by (apply scaled_pos; lia).
  (* the value is at least (10^17 - 1) * 10^k *)
  assert ((10 ^ 17 - 1) * (T * up k) <= s * dn k) as Lo.
  { transitivity (T * up k * quot b k); [rewrite Z.mul_comm; apply Z.mul_le_mono_nonneg_l; [apply Z.mul_nonneg_nonneg; lia|lia]|].
    apply Z.mul_div_le. apply Z.mul_pos_pos; lia. }
  assert (2 * top * (T * up (k + 1)) < s * dn (k + 1)) as Big.
  { apply (Z.mul_lt_mono_pos_r (dn k)); auto. replace (2 * top * (T * up (k + 1)) * dn k) with (2 * top * T * (up (k + 1) * dn k)) by ring.
    rewrite up_dn. replace (2 * top * T * (10 * up k * dn (k + 1))) with (20 * top * (T * up k) * dn (k + 1)) by ring.
    replace (s * dn (k + 1) * dn k) with (s * dn k * dn (k + 1)) by ring. apply Z.mul_lt_mono_pos_r; auto.
    eapply Z.lt_le_trans; [|exact Lo]. apply Z.mul_lt_mono_pos_r; [apply Z.mul_pos_pos; lia|reflexivity]. }
  set (u := T * up (k + 1)) in *. assert (0 < u) as U0 by (apply Z.mul_pos_pos; lia).
  set (v := s * dn (k + 1)) in *. assert (0 < v) as V0 by (apply Z.mul_pos_pos; lia).
  pose proof (Z.div_mod v u ltac:(lia)) as DM. pose proof (Z.mod_pos_bound v u U0) as MB. pose proof (Z.div_pos v u ltac:(lia) U0) as Q0.
  assert (exists m, 0 <= m /\ 2 * Z.abs (m * u - v) <= u) as (m & M0 & Mc).
  { destruct (Z_le_gt_dec (2 * (v mod u)) u) as [C|C].
    - exists (v / u). split; auto. replace (v / u * u - v) with (- (v mod u)) by lia. lia.
    - exists (v / u + 1). split; [lia|]. replace ((v / u + 1) * u - v) with (u - v mod u) by (rewrite Z.mul_add_distr_r; lia). lia. }
  assert (of_dec m (k + 1) = b) as Om.
  { rewrite of_dec_eq. apply close_rounds; auto; [lia|apply Z.mul_nonneg_nonneg; lia|]. fold T. fold s. fold v.
    replace (m * up (k + 1) * T) with (m * u) by (unfold u; ring).
    eapply Z.le_lt_trans; [|exact Big]. replace (4 * top * Z.abs (m * u - v)) with (2 * top * (2 * Z.abs (m * u - v))) by ring.
    apply Z.mul_le_mono_nonneg_l; [unfold top; lia|exact Mc]. }
  specialize (Mx m (k + 1) M0 Om). lia.
Qed.

(** ** The text determines the float *)

(** A reader that rounds correctly. *)
Definition ideal (sig : N) (e : Z) : option Z := Some (of_dec (Z.of_N sig) e).

Lemma spread_value d k : 0 <= d -> of_dec (fst (spread d k)) (snd (spread d k)) = of_dec d k.
Proof.
  intros D. unfold spread. destruct ((0 <=? k) && _) eqn:C; [|reflexivity]. apply andb_true_iff in C as [C _]. apply Z.leb_le in C.
  cbn [fst snd]. symmetry. change (of_dec (d * 10 ^ (k + 1)) (-1)) with (rnd (d * 10 ^ (k + 1)) (10 ^ 1)).
  assert (0 <= d * 10 ^ (k + 1)) by (apply Z.mul_nonneg_nonneg; [lia|apply Z.pow_nonneg; lia]).
  apply of_dec_ratio; try lia. unfold up, dn. rewrite (Z.max_r 0 k), (Z.max_l 0 (- k)) by lia. rewrite Z.pow_0_r, Z.pow_add_r by lia. ring.
Qed.
Lemma spread_nonneg d k : 0 <= d -> 0 <= fst (spread d k).
Proof.
  intros D. unfold spread. destruct (_ && _); cbn [fst]; [|lia]. apply Z.mul_nonneg_nonneg; [lia|apply Z.pow_nonneg; lia].
Qed.

Lemma zero_ok_with parts bits : parts 0%N (-1) = Some 0 -> (bits < 2 ^ 64)%N -> (bits mod 2 ^ 63 = 0)%N -> float_ok format64 (read_signed parts) bits.
Proof.
  intros Pz B M. pose proof (N.div_mod bits (2 ^ 63) ltac:(lia)) as DM. assert (bits / 2 ^ 63 < 2)%N as Dl by (apply N.div_lt_upper_bound; lia).
  assert (int_part [x30]) as Ip by (exists x30, []; repeat split). assert (frac_part [x2e; x30]) as Fp by (right; exists [x30]; repeat split; discriminate).
  assert (bits = 0 \/ bits = 2 ^ 63)%N as [->| ->] by lia.
  - split; [exists x30, [x2e; x30]; split; reflexivity|]. intros r R.
    change (format64 0) with ([] ++ [x30] ++ [x2e; x30] ++ []). rewrite <- !app_assoc. rewrite (@number_shape (read_signed parts) false [x30] [x2e; x30] [] r) by (auto; try (now left); discriminate).
    unfold floating. cbn. now rewrite Pz.
  - split; [exists x2d, [x30; x2e; x30]; split; reflexivity|]. intros r R.
    change (format64 (2 ^ 63)) with ([x2d] ++ [x30] ++ [x2e; x30] ++ []). rewrite <- !app_assoc. rewrite (@number_shape (read_signed parts) true [x30] [x2e; x30] [] r) by (auto; try (now left); discriminate).
    unfold floating. cbn. now rewrite Pz.
Qed.

Lemma finite_bits bits : wf_raw (RFlt bits) = true -> (bits < 2 ^ 64)%N /\ 0 <= Z.of_N (bits mod 2 ^ 63) < inf.
Proof.
  cbn [wf_raw]. intros W. apply andb_true_iff in W as [W1 W2]. apply N.ltb_lt in W1. apply negb_true_iff in W2. apply N.eqb_neq in W2. split; auto. split; [lia|].
  set (a := (bits mod 2 ^ 63)%N). assert (a < 2 ^ 63)%N as A by (apply N.mod_lt; lia).
  assert ((bits / 2 ^ 52) mod 2 ^ 11 = a / 2 ^ 52)%N as E.
  { unfold a. change (2 ^ 63)%N with (2 ^ 52 * 2 ^ 11)%N. rewrite N.mod_mul_r by lia. rewrite N.add_comm, N.mul_comm, N.div_add_l by lia.
    rewrite (N.div_small (bits mod 2 ^ 52)) by (apply N.mod_lt; lia). lia. }
  rewrite E in W2. assert (a / 2 ^ 52 < 2 ^ 11)%N by (apply N.div_lt_upper_bound; lia).
  pose proof (N.mul_succ_div_gt a (2 ^ 52) ltac:(lia)). unfold inf, top. lia.
Qed.

Theorem ideal_ok bits : wf_raw (RFlt bits) = true -> float_ok format64 (read_signed ideal) bits.
Proof.
  intros W. destruct (finite_bits _ W) as [B A]. destruct (N.eq_dec (bits mod 2 ^ 63) 0) as [Z0|Z0].
  { apply zero_ok_with; auto. }
  apply (@float_ok_of ideal bits _ B eq_refl); [lia|]. set (a := Z.of_N (bits mod 2 ^ 63)) in *. destruct (shortest a) as [d k] eqn:E.
  destruct (@shortest_spec a d k ltac:(lia) E) as (D0 & Od & _ & Kb & _). pose proof (@shortest_17 a d k ltac:(lia) E) as D17.
  split; [lia|]. split; [lia|]. unfold ideal. rewrite Z2N.id by (apply spread_nonneg; lia). f_equal. rewrite spread_value by lia. exact Od.
Qed.

(** ** The reader's answers are finite *)

Lemma rnd_le_self n d f : 0 <= n -> 0 < d -> 0 <= f -> n * 2 ^ 1074 <= scaled f * d -> rnd n d <= f.
Proof.
  intros N D F L. rewrite <- (rnd_self F). apply rnd_mono; auto; [now apply scaled_nonneg|apply two_pos].
Qed.
Lemma of_u64_bound sig : (sig < 2 ^ 64)%N -> 0 <= of_u64 (Z.of_N sig) < inf.
Proof.
  intros L. split; [apply rnd_nonneg; lia|]. unfold of_u64. apply Z.le_lt_trans with (rnd (2 ^ 64) 1); [apply rnd_mono; lia|apply Z.ltb_lt; vm_compute; reflexivity].
Qed.
Lemma pow10_ge k : 0 <= k -> 2 ^ 1074 <= scaled (pow10 k).
Proof.
  intros K. assert (scaled (rnd 1 1) = 2 ^ 1074) as E by (vm_compute; reflexivity). rewrite <- E.
  assert (1 <= 10 ^ k) by (apply (Z.pow_le_mono_r 10 0 k); lia).
  apply scaled_le; [apply rnd_nonneg; lia|]. apply rnd_mono; lia.
Qed.
Lemma fdiv_le f k : 0 <= f -> 0 <= k -> 0 <= fdiv f (pow10 k) <= f.
Proof.
  intros F K. pose proof (pow10_ge K) as P. pose proof two_pos as T. pose proof (scaled_nonneg F) as Sf. rewrite fdiv_eq by (try apply pow10_pos; lia). split; [apply rnd_nonneg; lia|].
  apply rnd_le_self; try lia. apply Z.mul_le_mono_nonneg_l; lia.
Qed.

Definition fine (st : Z * Z + option Z) : Prop :=
  match st with inl (f, _) => 0 <= f < inf | inr (Some g) => 0 <= g < inf | inr None => True end.
Lemma round_fine st : fine st -> fine (round_parts st).
Proof.
  destruct st as [(f, e)|[g|]]; cbn [fine round_parts]; auto. intros F. destruct (Z.leb_spec (Z.abs e) 308) as [L|L].
  - destruct (Z.leb_spec 0 e) as [P|P].
    + cbv zeta. destruct (Z.ltb_spec (fmul f (pow10 e)) inf); cbn; auto. split; auto. pose proof (pow10_pos P) as P0. rewrite fmul_eq by lia. apply rnd_nonneg.
      * apply Z.mul_nonneg_nonneg; [apply scaled_nonneg; lia|]. pose proof (pow10_ge P). pose proof two_pos. lia.
      * pose proof two_pos. apply Z.mul_pos_pos; lia.
    + cbn [fine]. pose proof (@fdiv_le f (- e)). lia.
  - destruct (f =? 0); cbn [fine]; auto. destruct (0 <=? e); cbn [fine]; auto. pose proof (@fdiv_le f 308). lia.
Qed.
Lemma parts_fine sig e g : (sig < 2 ^ 64)%N -> from_parts sig e = Some g -> 0 <= g < inf.
Proof.
  intros L. unfold from_parts. set (n := Z.to_N (Z.abs e / 308 + 1)). clearbody n.
  assert (fine (N.iter n round_parts (inl (of_u64 (Z.of_N sig), e)))) as F.
  { apply N.iter_invariant; [intros st; apply round_fine|]. cbn. now apply of_u64_bound. }
  destruct (N.iter n round_parts _) as [|[x|]]; intros E; inversion E; subst; exact F.
Qed.

Lemma take_fits ds sig : (sig < 2 ^ 64)%N -> (fst (take sig ds) < 2 ^ 64)%N.
Proof.
  revert sig. induction ds as [|c ds IH]; intros sig L; [exact L|]. cbn [take]. destruct (N.ltb_spec (sig * 10 + (bN c - 48)) (2 ^ 64)); auto.
Qed.

Lemma exponent_fine sig st s g : (sig < 2 ^ 64)%N -> with_exponent from_parts sig st s = Some g -> 0 <= g < inf.
Proof.
  intros L. unfold with_exponent. destruct s as [|c r]; [now apply parts_fine|].
  destruct (match r with [] => (true, r) | c0 :: r1 => if beq c0 x2b then (true, r1) else if beq c0 x2d then (false, r1) else (true, r) end) as [pos r1].
  destruct (_ <=? _); [|now apply parts_fine]. destruct (_ && _); [discriminate|]. intros E. inversion E; subst. split; [lia|reflexivity].
Qed.
Lemma unsigned_fine t g : read_unsigned from_parts t = Some g -> 0 <= g < inf.
Proof.
  unfold read_unsigned. destruct (digits t) as [d s]. pose proof (@take_fits d 0 eq_refl) as T. destruct (take 0 d) as [sig rest]. cbn [fst] in T.
  destruct s as [|c s1].
  - destruct rest; [|now apply parts_fine]. intros E. inversion E; subst. now apply of_u64_bound.
  - destruct (beq c x2e); [|now apply exponent_fine]. destruct (digits s1) as [fd s2]. pose proof (@take_fits fd sig T) as T'.
    destruct (take sig fd) as [sig' rest']. cbn [fst] in T'. now apply exponent_fine.
Qed.
Theorem read_finite t b : read_f64 t = Some b -> wf_raw (RFlt b) = true.
Proof.
  assert (forall g (neg : N), 0 <= g < inf -> (neg < 2)%N -> wf_raw (RFlt (Z.to_N g + neg * 2 ^ 63)) = true) as W.
  { intros g neg G Ng. cbn [wf_raw]. unfold inf, top in G. apply andb_true_iff. split; [apply N.ltb_lt; lia|]. apply negb_true_iff, N.eqb_neq.
    replace (neg * 2 ^ 63)%N with (neg * 2 ^ 11 * 2 ^ 52)%N by lia. rewrite N.div_add by lia. rewrite N.mod_add by lia.
    assert (Z.to_N g / 2 ^ 52 < 2047)%N by (apply N.div_lt_upper_bound; lia). rewrite N.mod_small by lia. lia. }
  unfold read_f64, read_signed. destruct t as [|c r]; [discriminate|]. destruct (beq c x2d).
  - destruct (read_unsigned from_parts r) as [g|] eqn:E; [|discriminate]. intros X. inversion X; subst. apply unsigned_fine in E.
    exact (W g 1%N E eq_refl).
  - destruct (read_unsigned from_parts (c :: r)) as [g|] eqn:E; [|discriminate]. intros X. inversion X; subst. apply unsigned_fine in E.
    rewrite <- (N.add_0_r (Z.to_N g)). exact (W g 0%N E eq_refl).
Qed.

(** ** How far off the reader can be *)

Definition K : Z := 2 * top.
(** [F] (scaled) is the rational [n / d] up to a factor between [A / B] and
    [B / A] and [h] halves of the smallest double. *)
Definition off (A B h F n d : Z) : Prop :=
  (2 * F - h) * A * d <= 2 * B * n * 2 ^ 1074 /\ 2 * A * n * 2 ^ 1074 <= (2 * F + h) * B * d.

Lemma rnd_err n d : 0 <= n -> 0 < d -> K * Z.abs (n * 2 ^ 1074 - scaled (rnd n d) * d) <= n * 2 ^ 1074 + top * d.
Proof.
  intros N D. destruct (rnd_parts N D) as (e & q & r & V & R & E & Q & Nz & Eq). rewrite V. rewrite Eq in *. unfold K.
  pose proof (Z.pow_pos_nonneg 2 e ltac:(lia) E) as W. assert (0 < top) as T by reflexivity.
  assert (0 < d * 2 ^ e) as U by (apply Z.mul_pos_pos; lia).
  assert (top * (d * 2 ^ e) <= q * (d * 2 ^ e) + top * d) as Big.
  { destruct (Z.eq_dec e 0) as [->|Ne].
    - rewrite Z.pow_0_r, Z.mul_1_r. assert (0 <= q * d) by (apply Z.mul_nonneg_nonneg; lia). lia.
    - assert (top * (d * 2 ^ e) <= q * (d * 2 ^ e)) by (apply Z.mul_le_mono_nonneg_r; lia). assert (0 <= top * d) by (apply Z.mul_nonneg_nonneg; lia). lia. }
  assert (forall x, 0 <= 2 * x <= d * 2 ^ e -> 2 * top * x <= q * (d * 2 ^ e) + r + top * d) as Fin.
  { intros x X. assert (top * (2 * x) <= top * (d * 2 ^ e)) by (apply Z.mul_le_mono_nonneg_l; lia). lia. }
  destruct ((d * 2 ^ e <? 2 * r) || (d * 2 ^ e =? 2 * r) && Z.odd q) eqn:C.
  - rewrite scaled_enc by lia. replace ((q + 1) * 2 ^ e * d) with ((q + 1) * (d * 2 ^ e)) by ring.
    replace (q * (d * 2 ^ e) + r - (q + 1) * (d * 2 ^ e)) with (- (d * 2 ^ e - r)) by ring. rewrite Z.abs_opp, Z.abs_eq by lia. apply Fin.
    assert (d * 2 ^ e <= 2 * r) by (apply orb_true_iff in C as [C|C]; [apply Z.ltb_lt in C; lia|apply andb_true_iff in C as [C _]; apply Z.eqb_eq in C; lia]). lia.
  - rewrite scaled_enc by lia. replace (q * 2 ^ e * d) with (q * (d * 2 ^ e)) by ring.
    replace (q * (d * 2 ^ e) + r - q * (d * 2 ^ e)) with r by ring. rewrite Z.abs_eq by lia. apply Fin.
    apply orb_false_iff in C as [C _]. apply Z.ltb_ge in C. lia.
Qed.

Lemma K_big : 4 < K.
Proof. reflexivity. Qed.

Lemma off_rnd n d : 0 <= n -> 0 < d -> off (K - 1) (K + 1) 1 (scaled (rnd n d)) n d.
Proof.
  intros N D. pose proof (rnd_err N D) as E. pose proof (scaled_nonneg (rnd_nonneg N D)) as F0. pose proof K_big as Kb.
  assert (K = 2 * top) as K2 by reflexivity. set (F := scaled (rnd n d)) in *.
  pose proof two_pos as Tp. set (T := 2 ^ 1074) in *. assert (0 <= n * T) as NT by (apply Z.mul_nonneg_nonneg; lia).
  assert (0 <= F * d) as FD by (apply Z.mul_nonneg_nonneg; lia).
  assert (K * (F * d) - K * (n * T) <= K * Z.abs (n * T - F * d)) as X1 by (rewrite <- Z.mul_sub_distr_l; apply Z.mul_le_mono_nonneg_l; lia).
  assert (K * (n * T) - K * (F * d) <= K * Z.abs (n * T - F * d)) as X2 by (rewrite <- Z.mul_sub_distr_l; apply Z.mul_le_mono_nonneg_l; lia).
  unfold off. fold T. split.
  - replace ((2 * F - 1) * (K - 1) * d) with (2 * (K * (F * d)) - 2 * (F * d) - K * d + d) by ring.
    replace (2 * (K + 1) * n * T) with (2 * (K * (n * T)) + 2 * (n * T)) by ring.
    assert (K * d = 2 * (top * d)) as Kd by (rewrite K2; ring).
    destruct (Z.eq_dec F 0) as [Z0|Z0].
    + rewrite Z0 in *. assert (0 <= K * (n * T)) by (apply Z.mul_nonneg_nonneg; lia). assert (1 * d <= K * d) by (apply Z.mul_le_mono_nonneg_r; lia). lia.
    + assert (1 * d <= F * d) by (apply Z.mul_le_mono_nonneg_r; lia). lia.
  - replace (2 * (K - 1) * n * T) with (2 * (K * (n * T)) - 2 * (n * T)) by ring.
    replace ((2 * F + 1) * (K + 1) * d) with (2 * (K * (F * d)) + 2 * (F * d) + K * d + d) by ring.
    assert (K * d = 2 * (top * d)) as Kd by (rewrite K2; ring). lia.
Qed.
Lemma off_int n : 0 < n -> off (K - 1) (K + 1) 0 (scaled (rnd n 1)) n 1.
Proof.
  intros N. assert (top <= rnd n 1) as Tn.
  { apply Z.le_trans with (rnd 1 1); [apply Z.leb_le; vm_compute; reflexivity|]. apply rnd_mono; lia. }
  pose proof (@rnd_error n 1 ltac:(lia) ltac:(lia) Tn) as E. change (2 * top) with K in E. pose proof K_big as Kb.
  set (F := scaled (rnd n 1)) in *. assert (0 <= F) as F0 by (apply scaled_nonneg, rnd_nonneg; lia). pose proof two_pos as Tp. set (T := 2 ^ 1074) in *.
  rewrite !Z.mul_1_r in E. assert (0 <= n * T) as NT by (apply Z.mul_nonneg_nonneg; lia).
  assert (K * F - K * (n * T) <= K * Z.abs (n * T - F)) as X1 by (rewrite <- Z.mul_sub_distr_l; apply Z.mul_le_mono_nonneg_l; lia).
  assert (K * (n * T) - K * F <= K * Z.abs (n * T - F)) as X2 by (rewrite <- Z.mul_sub_distr_l; apply Z.mul_le_mono_nonneg_l; lia).
  unfold off. fold T. split.
  - replace ((2 * F - 0) * (K - 1) * 1) with (2 * (K * F) - 2 * F) by ring. replace (2 * (K + 1) * n * T) with (2 * (K * (n * T)) + 2 * (n * T)) by ring. lia.
  - replace (2 * (K - 1) * n * T) with (2 * (K * (n * T)) - 2 * (n * T)) by ring. replace ((2 * F + 0) * (K + 1) * 1) with (2 * (K * F) + 2 * F) by ring. lia.
Qed.

Lemma off_div A B h F n d P m : 0 < A <= B -> 0 <= h -> 0 <= F -> 0 <= n -> 0 < d -> 0 < P -> 0 < m -> h = 0 \/ 10 <= m ->
  off A B h F n d -> off (K - 1) (K + 1) 0 P m 1 ->
  off (A * (K - 1) * (K - 1)) (B * (K + 1) * (K + 1)) (h + 1) (scaled (rnd F P)) n (d * m).
Proof.
  intros AB H0 F0 N D P0 M Hm (O1 & O2) (P1 & P2). destruct (@off_rnd F P F0 P0) as (G1 & G2).
  pose proof K_big as Kb. assert (forall x, x <= 0 -> x * 10 <= x) as _ by lia.
  assert (10 * ((K - 1) * (K - 1)) >= (K + 1) * (K + 1)) as K10 by (apply Z.le_ge, Z.leb_le; vm_compute; reflexivity).
  set (k1 := K - 1) in *. set (k2 := K + 1) in *. assert (0 < k1 <= k2) as Kp by (unfold k1, k2; lia). clearbody k1 k2.
  set (G := scaled (rnd F P)) in *. assert (0 <= G) as G0 by (apply scaled_nonneg, rnd_nonneg; lia). clearbody G.
  unfold off in *. pose proof two_pos as Tp. set (T := 2 ^ 1074) in *. clearbody T.
  assert (k1 * m * T <= k2 * P) as Pl by lia. assert (k1 * P <= k2 * m * T) as Pu by lia. clear P1 P2.
  split.
  - destruct (Z.eq_dec G 0) as [->|Gn].
    { assert (0 <= 2 * (B * k2 * k2) * n * T) by (repeat apply Z.mul_nonneg_nonneg; lia).
      assert (0 <= (h + 1) * (A * k1 * k1) * (d * m)) by (repeat apply Z.mul_nonneg_nonneg; lia). lia. }
    (* everything times T *)
    assert ((2 * G - 1) * (A * k1 * k1) * (d * m) * T <= k2 * k2 * T * (2 * B * n * T + h * A * d)) as Main.
    { transitivity ((2 * G - 1) * A * k1 * d * (k2 * P)).
      - replace ((2 * G - 1) * (A * k1 * k1) * (d * m) * T) with ((2 * G - 1) * A * k1 * d * (k1 * m * T)) by ring.
        apply Z.mul_le_mono_nonneg_l; [repeat apply Z.mul_nonneg_nonneg; lia|exact Pl].
      - replace ((2 * G - 1) * A * k1 * d * (k2 * P)) with (k2 * A * d * ((2 * G - 1) * k1 * P)) by ring.
        transitivity (k2 * A * d * (2 * k2 * F * T)); [apply Z.mul_le_mono_nonneg_l; [repeat apply Z.mul_nonneg_nonneg; lia|exact G1]|].
        replace (k2 * A * d * (2 * k2 * F * T)) with (k2 * k2 * T * ((2 * F - h) * A * d + h * A * d)) by ring.
        apply Z.mul_le_mono_nonneg_l; [repeat apply Z.mul_nonneg_nonneg; lia|]. lia. }
    assert (h * (k2 * k2 * (A * d)) <= h * (A * k1 * k1 * (d * m))) as Slack.
    { destruct Hm as [->|M10]; [lia|]. apply Z.mul_le_mono_nonneg_l; [lia|].
      transitivity (10 * (k1 * k1) * (A * d)); [apply Z.mul_le_mono_nonneg_r; [apply Z.mul_nonneg_nonneg; lia|lia]|].
      replace (A * k1 * k1 * (d * m)) with (m * (k1 * k1) * (A * d)) by ring. apply Z.mul_le_mono_nonneg_r; [apply Z.mul_nonneg_nonneg; lia|].
      apply Z.mul_le_mono_nonneg_r; [apply Z.mul_nonneg_nonneg; lia|lia]. }
    apply (Z.mul_le_mono_pos_r _ _ T); auto.
    replace ((2 * G - (h + 1)) * (A * k1 * k1) * (d * m) * T) with ((2 * G - 1) * (A * k1 * k1) * (d * m) * T - h * (A * k1 * k1 * (d * m)) * T) by ring.
    replace (2 * (B * k2 * k2) * n * T * T) with (k2 * k2 * T * (2 * B * n * T + h * A * d) - h * (k2 * k2 * (A * d)) * T) by ring.
    apply (Z.mul_le_mono_pos_r _ _ T) in Slack; auto. lia.
  - assert (2 * (A * k1 * k1) * n * T * T <= k1 * k1 * T * ((2 * F + h) * B * d)) as S1.
    { replace (2 * (A * k1 * k1) * n * T * T) with (k1 * k1 * T * (2 * A * n * T)) by ring. apply Z.mul_le_mono_nonneg_l; [repeat apply Z.mul_nonneg_nonneg; lia|exact O2]. }
    assert (k1 * B * d * (2 * k1 * F * T) <= k1 * B * d * ((2 * G + 1) * k2 * P)) as S2 by (apply Z.mul_le_mono_nonneg_l; [repeat apply Z.mul_nonneg_nonneg; lia|exact G2]).
    assert ((2 * G + 1) * k2 * B * d * (k1 * P) <= (2 * G + 1) * k2 * B * d * (k2 * m * T)) as S3 by (apply Z.mul_le_mono_nonneg_l; [repeat apply Z.mul_nonneg_nonneg; lia|exact Pu]).
    assert (h * B * d * T * (k1 * k1) <= h * B * d * T * (k2 * k2 * m)) as S4.
    { apply Z.mul_le_mono_nonneg_l; [repeat apply Z.mul_nonneg_nonneg; lia|]. transitivity (k2 * k2); [apply Z.mul_le_mono_nonneg; lia|].
      rewrite <- (Z.mul_1_r (k2 * k2)) at 1. apply Z.mul_le_mono_nonneg_l; [apply Z.mul_nonneg_nonneg; lia|lia]. }
    apply (Z.mul_le_mono_pos_r _ _ T); auto.
    replace (k1 * k1 * T * ((2 * F + h) * B * d)) with (k1 * B * d * (2 * k1 * F * T) + h * B * d * T * (k1 * k1)) in S1 by ring.
    replace (k1 * B * d * ((2 * G + 1) * k2 * P)) with ((2 * G + 1) * k2 * B * d * (k1 * P)) in S2 by ring.
    replace ((2 * G + (h + 1)) * (B * k2 * k2) * (d * m) * T) with ((2 * G + 1) * k2 * B * d * (k2 * m * T) + h * B * d * T * (k2 * k2 * m)) by ring. lia.
Qed.

Lemma off_mul F n P m : 0 <= F -> 0 <= n -> 0 < P -> 0 < m -> off (K - 1) (K + 1) 0 F n 1 -> off (K - 1) (K + 1) 0 P m 1 ->
  off ((K - 1) * (K - 1) * (K - 1)) ((K + 1) * (K + 1) * (K + 1)) 1 (scaled (rnd (F * P) (2 ^ 1074 * 2 ^ 1074))) (n * m) 1.
Proof.
  intros F0 N P0 M (F1 & F2) (P1 & P2). pose proof two_pos as Tp. assert (0 < 2 ^ 1074 * 2 ^ 1074) as TT by (apply Z.mul_pos_pos; lia).
  assert (0 <= F * P) as FP by (apply Z.mul_nonneg_nonneg; lia).
  destruct (@off_rnd (F * P) _ FP TT) as (G1 & G2). pose proof K_big as Kb.
  set (k1 := K - 1) in *. set (k2 := K + 1) in *. assert (0 < k1 <= k2) as Kp by (unfold k1, k2; lia). clearbody k1 k2.
  set (G := scaled (rnd (F * P) (2 ^ 1074 * 2 ^ 1074))) in *. assert (0 <= G) as G0 by (apply scaled_nonneg, rnd_nonneg; lia). clearbody G.
  unfold off in *. set (T := 2 ^ 1074) in *. clearbody T. clear TT.
  assert (k1 * F <= k2 * (n * T)) as Fu by lia. assert (k1 * (n * T) <= k2 * F) as Fl by lia.
  assert (k1 * P <= k2 * (m * T)) as Pu by lia. assert (k1 * (m * T) <= k2 * P) as Pl by lia. clear F1 F2 P1 P2.
  assert (0 <= n * T) as NT by (apply Z.mul_nonneg_nonneg; lia). assert (0 <= m * T) as MT by (apply Z.mul_nonneg_nonneg; lia).
  assert ((k1 * F) * (k1 * P) <= (k2 * (n * T)) * (k2 * (m * T))) as Uu by (apply Z.mul_le_mono_nonneg; try lia; apply Z.mul_nonneg_nonneg; lia).
  assert ((k1 * (n * T)) * (k1 * (m * T)) <= (k2 * F) * (k2 * P)) as Ll by (apply Z.mul_le_mono_nonneg; try lia; apply Z.mul_nonneg_nonneg; lia).
  split.
  - apply (Z.mul_le_mono_pos_r _ _ (T * T)); [apply Z.mul_pos_pos; lia|].
    replace ((2 * G - 1) * (k1 * k1 * k1) * 1 * (T * T)) with (k1 * k1 * ((2 * G - 1) * k1 * (T * T))) by ring.
    transitivity (k1 * k1 * (2 * k2 * (F * P) * T)); [apply Z.mul_le_mono_nonneg_l; [apply Z.mul_nonneg_nonneg; lia|exact G1]|].
    replace (k1 * k1 * (2 * k2 * (F * P) * T)) with (2 * k2 * T * (k1 * F * (k1 * P))) by ring.
    replace (2 * (k2 * k2 * k2) * (n * m) * T * (T * T)) with (2 * k2 * T * (k2 * (n * T) * (k2 * (m * T)))) by ring.
    apply Z.mul_le_mono_nonneg_l; [repeat apply Z.mul_nonneg_nonneg; lia|exact Uu].
  - apply (Z.mul_le_mono_pos_r _ _ (T * T)); [apply Z.mul_pos_pos; lia|].
    replace (2 * (k1 * k1 * k1) * (n * m) * T * (T * T)) with (2 * k1 * T * (k1 * (n * T) * (k1 * (m * T)))) by ring.
    transitivity (2 * k1 * T * (k2 * F * (k2 * P))); [apply Z.mul_le_mono_nonneg_l; [repeat apply Z.mul_nonneg_nonneg; lia|exact Ll]|].
    replace (2 * k1 * T * (k2 * F * (k2 * P))) with (k2 * k2 * (2 * k1 * (F * P) * T)) by ring.
    replace ((2 * G + 1) * (k2 * k2 * k2) * 1 * (T * T)) with (k2 * k2 * ((2 * G + 1) * k2 * (T * T))) by ring.
    apply Z.mul_le_mono_nonneg_l; [repeat apply Z.mul_nonneg_nonneg; lia|exact G2].
Qed.

(** Two approximations of the same number. *)
Lemma off_both A B h X Y n d : 0 < A <= B -> 0 <= n -> 0 < d -> off A B h Y n d -> off (K - 1) (K + 1) 1 X n d ->
  (2 * Y - h) * (A * (K - 1)) <= (2 * X + 1) * (B * (K + 1)) /\ (2 * X - 1) * (A * (K - 1)) <= (2 * Y + h) * (B * (K + 1)).
Proof.
  intros AB N D (Y1 & Y2) (X1 & X2). pose proof K_big as Kb. set (k1 := K - 1) in *. set (k2 := K + 1) in *. assert (0 < k1 <= k2) as Kp by (unfold k1, k2; lia). clearbody k1 k2.
  set (v := n * 2 ^ 1074) in *. replace (2 * B * n * 2 ^ 1074) with (2 * B * v) in Y1 by (unfold v; ring). replace (2 * A * n * 2 ^ 1074) with (2 * A * v) in Y2 by (unfold v; ring).
  replace (2 * k2 * n * 2 ^ 1074) with (2 * k2 * v) in X1 by (unfold v; ring). replace (2 * k1 * n * 2 ^ 1074) with (2 * k1 * v) in X2 by (unfold v; ring). clearbody v.
  split; apply (Z.mul_le_mono_pos_r _ _ d); auto.
  - replace ((2 * Y - h) * (A * k1) * d) with (k1 * ((2 * Y - h) * A * d)) by ring. transitivity (k1 * (2 * B * v)); [apply Z.mul_le_mono_nonneg_l; lia|].
    replace (k1 * (2 * B * v)) with (B * (2 * k1 * v)) by ring. replace ((2 * X + 1) * (B * k2) * d) with (B * ((2 * X + 1) * k2 * d)) by ring. apply Z.mul_le_mono_nonneg_l; lia.
  - replace ((2 * X - 1) * (A * k1) * d) with (A * ((2 * X - 1) * k1 * d)) by ring. transitivity (A * (2 * k2 * v)); [apply Z.mul_le_mono_nonneg_l; lia|].
    replace (A * (2 * k2 * v)) with (k2 * (2 * A * v)) by ring. replace ((2 * Y + h) * (B * k2) * d) with (k2 * ((2 * Y + h) * B * d)) by ring. apply Z.mul_le_mono_nonneg_l; lia.
Qed.
