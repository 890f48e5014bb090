(** * Double precision numbers

    What serde_json and ryu compute with: the rounding of IEEE 754, on the bit
    patterns used by Json.v.  Only magnitudes are treated here (the sign is a
    separate bit); integers only, no real numbers. *)
From Coq Require Import ZArith Lia Bool.

Set Implicit Arguments.
Open Scope Z_scope.

(** [2^52], and the pattern of infinity. *)
Definition top : Z := 2 ^ 52.
Definition inf : Z := 2047 * top.

(** The value of the pattern [b >= 0], multiplied by [2^1074] (an integer).
    Patterns from [inf] on are not finite doubles; they stand for the values
    that doubles with a larger exponent range would have. *)
Definition scaled (b : Z) : Z :=
  let ex := b / top in
  let m := b mod top in
  if ex =? 0 then m else (top + m) * 2 ^ (ex - 1).

(** ** Specification: the double nearest to [n / d], ties to even *)

Definition nearest (n d b : Z) : Prop :=
  0 <= b /\
  forall b', 0 <= b' -> b' <> b ->
    let x := Z.abs (n * 2 ^ 1074 - scaled b * d) in
    let y := Z.abs (n * 2 ^ 1074 - scaled b' * d) in
    x < y \/ x = y /\ Z.even b = true.

(** ** The rounding *)

(** [2^j] as a factor of the numerator or of the denominator. *)
Definition two (j : Z) : Z := 2 ^ Z.max 0 j.
(** The grid step is [2^(e - 1074)]. *)
Definition grid (n d : Z) : Z :=
  let l := Z.log2 n - Z.log2 d in
  Z.max 0 ((if n * two (- l) <? d * two l then l - 1 else l) + 1022).
Definition rnd (n d : Z) : Z :=
  if n =? 0 then 0 else
  let e := grid n d in
  let v := n * two (1074 - e) in
  let u := d * two (e - 1074) in
  let (q, r) := Z.div_eucl v u in
  e * top + (if (u <? 2 * r) || (u =? 2 * r) && Z.odd q then q + 1 else q).

(** Significand and exponent: [scaled b = signif b * 2^expnt b]. *)
Definition signif (b : Z) : Z := if b / top =? 0 then b mod top else top + b mod top.
Definition expnt (b : Z) : Z := Z.max 0 (b / top - 1).

(** ** Facts *)

Lemma scaled_split b : 0 <= b -> scaled b = signif b * 2 ^ expnt b /\ 0 <= expnt b /\ 0 <= signif b.
Proof.
  intros B. unfold scaled, signif, expnt. assert (0 < top) as T by reflexivity. pose proof (Z.mod_pos_bound b top T). pose proof (Z.div_pos b top B T) as D.
  cbv zeta. destruct (Z.eqb_spec (b / top) 0) as [E|E].
  - rewrite E. change (Z.max 0 (0 - 1)) with 0. rewrite Z.pow_0_r. lia.
  - rewrite Z.max_r by lia. lia.
Qed.

Lemma scaled_nonneg b : 0 <= b -> 0 <= scaled b.
Proof.
  intros B. unfold scaled, top. destruct (_ =? 0); [apply Z.mod_pos_bound; lia|].
  pose proof (Z.mod_pos_bound b (2 ^ 52)). pose proof (Z.pow_nonneg 2 (b / 2 ^ 52 - 1)). apply Z.mul_nonneg_nonneg; lia.
Qed.

Lemma scaled_enc e m : 0 <= e -> 0 <= m <= 2 * top -> (0 < e -> top <= m) -> scaled (e * top + m) = m * 2 ^ e.
Proof.
  intros E M N. unfold scaled. assert (0 < top) as T by reflexivity.
  destruct (Z.eq_dec m (2 * top)) as [->|X].
  - replace (e * top + 2 * top) with ((e + 2) * top) by ring. rewrite Z.div_mul, Z.mod_mul by lia.
    destruct (Z.eqb_spec (e + 2) 0); [lia|]. replace (e + 2 - 1) with (Z.succ e) by lia. rewrite Z.pow_succ_r by lia. ring.
  - destruct (Z_lt_le_dec m top) as [L|L].
    + assert (e = 0) as -> by lia. rewrite Z.mul_0_l, Z.add_0_l. rewrite Z.div_small, Z.mod_small by lia. cbn [Z.eqb]. rewrite Z.pow_0_r. ring.
    + replace (e * top + m) with ((m - top) + (e + 1) * top) by ring.
      rewrite Z.div_add, Z.mod_add by lia. rewrite Z.div_small, Z.mod_small by lia.
      destruct (Z.eqb_spec (0 + (e + 1)) 0); [lia|]. replace (0 + (e + 1) - 1) with e by lia. f_equal. ring.
Qed.

(** Every pattern has this form. *)
Lemma form b : 0 <= b -> exists e m, b = e * top + m /\ 0 <= e /\ 0 <= m < 2 * top /\ (0 < e -> top <= m).
Proof.
  intros B. assert (0 < top) as T by reflexivity.
  pose proof (Z.div_mod b top ltac:(lia)) as X. pose proof (Z.mod_pos_bound b top T) as Y. pose proof (Z.div_pos b top B T) as P.
  destruct (Z.eq_dec (b / top) 0) as [Q|Q].
  - exists 0, b. repeat split; lia.
  - exists (b / top - 1), (top + b mod top). repeat split; lia.
Qed.

Lemma scaled_succ b : 0 <= b -> scaled b < scaled (b + 1).
Proof.
  intros B. destruct (form B) as (e & m & -> & E & M & N). rewrite <- Z.add_assoc.
  rewrite !scaled_enc by lia. pose proof (Z.pow_pos_nonneg 2 e). nia.
Qed.

Lemma scaled_mono b b' : 0 <= b -> b < b' -> scaled b < scaled b'.
Proof.
  intros B L. replace b' with (b + (1 + Z.of_nat (Z.to_nat (b' - b - 1)))) by lia.
  induction (Z.to_nat (b' - b - 1)) as [|k IH]; [rewrite Z.add_0_r; now apply scaled_succ|].
  etransitivity; [exact IH|]. replace (b + (1 + Z.of_nat (S k))) with (b + (1 + Z.of_nat k) + 1) by lia. apply scaled_succ. lia.
Qed.
Lemma scaled_le b b' : 0 <= b -> b <= b' -> scaled b <= scaled b'.
Proof. intros B L. destruct (Z.eq_dec b b') as [->|X]; [lia|]. pose proof (@scaled_mono b b'). lia. Qed.
Lemma scaled_inj b b' : 0 <= b -> 0 <= b' -> scaled b = scaled b' -> b = b'.
Proof.
  intros B B' E. destruct (Z.lt_trichotomy b b') as [L|[L|L]]; auto.
  - pose proof (@scaled_mono b b'). lia.
  - pose proof (@scaled_mono b' b). lia.
Qed.
Lemma scaled_pos b : 0 < b -> 0 < scaled b.
Proof. intros B. pose proof (@scaled_mono 0 b). change (scaled 0) with 0 in *. lia. Qed.

Lemma two_up j : 0 < two j.
Proof. apply Z.pow_pos_nonneg; lia. Qed.
(** Cancelling [two]. *)
Lemma two_split j k : 0 <= k -> 0 <= k + j -> two (- j) * 2 ^ (k - Z.max 0 (- j)) = 2 ^ k /\ two j * 2 ^ (k - Z.max 0 (- j)) = 2 ^ (k + j).
Proof.
  intros K J. unfold two. rewrite <- !Z.pow_add_r by lia. split; f_equal; lia.
Qed.

Lemma grid_spec n d : 0 < n -> 0 < d ->
  d * 2 ^ grid n d * 2 ^ 53 > n * 2 ^ 1074 /\ (0 < grid n d -> d * 2 ^ grid n d * 2 ^ 52 <= n * 2 ^ 1074).
Proof.
  intros N D. unfold grid. set (l := Z.log2 n - Z.log2 d).
  pose proof (Z.log2_spec n N) as [N1 N2]. pose proof (Z.log2_spec d D) as [D1 D2].
  pose proof (Z.log2_nonneg n) as Ln. pose proof (Z.log2_nonneg d) as Ld. rewrite Z.pow_succ_r in N2, D2 by lia.
  (* n/d within (2^(l-1), 2^(l+1)), multiplied by 2^(log2 d) *)
  set (k := Z.log2 n + Z.log2 d + 2000). assert (0 <= k) as K by (unfold k; lia).
  assert (forall c, n * two (- c) < d * two c <-> - k <= c <= k /\ n * 2 ^ k < d * 2 ^ (k + c) \/ ~ (- k <= c <= k) /\ n * two (- c) < d * two c) as X.
  { intros c. destruct (Z_le_dec (- k) c) as [A|A]; [destruct (Z_le_dec c k) as [B|B]|]; try tauto.
    destruct (@two_split c k K ltac:(lia)) as (E1 & E2). rewrite <- E1, <- E2, !Z.mul_assoc.
    pose proof (Z.pow_pos_nonneg 2 (k - Z.max 0 (- c)) ltac:(lia) ltac:(lia)) as P.
    rewrite <- (Z.mul_lt_mono_pos_r _ _ _ P). tauto. }
  assert (n * 2 ^ k < d * 2 ^ (k + l + 1)) as Up.
  { apply Z.lt_le_trans with (2 * 2 ^ Z.log2 n * 2 ^ k).
    - apply Z.mul_lt_mono_pos_r; [apply Z.pow_pos_nonneg; lia|lia].
    - apply Z.le_trans with (2 ^ Z.log2 d * 2 ^ (k + l + 1)).
      + rewrite <- Z.pow_succ_r, <- !Z.pow_add_r by lia. apply Z.pow_le_mono_r; lia.
      + apply Z.mul_le_mono_nonneg_r; [apply Z.pow_nonneg; lia|lia]. }
  assert (d * 2 ^ (k + l - 1) <= n * 2 ^ k) as Lo.
  { apply Z.le_trans with (2 * 2 ^ Z.log2 d * 2 ^ (k + l - 1)).
    - apply Z.mul_le_mono_nonneg_r; [apply Z.pow_nonneg; lia|lia].
    - apply Z.le_trans with (2 ^ Z.log2 n * 2 ^ k).
      + rewrite <- Z.pow_succ_r, <- !Z.pow_add_r by lia. apply Z.pow_le_mono_r; lia.
      + apply Z.mul_le_mono_nonneg_r; [apply Z.pow_nonneg; lia|lia]. }
  set (c := if n * two (- l) <? d * two l then l - 1 else l).
  assert (n * 2 ^ k < d * 2 ^ (k + c + 1) /\ d * 2 ^ (k + c) <= n * 2 ^ k) as (C1 & C2).
  { unfold c. destruct (Z.ltb_spec (n * two (- l)) (d * two l)) as [T|T].
    - apply X in T. destruct T as [(_ & T)|(T & _)]; [|unfold k, l in T; lia]. replace (k + (l - 1) + 1) with (k + l) by lia. split; auto. replace (k + (l - 1)) with (k + l - 1) by lia. auto.
    - split; auto. destruct (Z_le_gt_dec (d * 2 ^ (k + l)) (n * 2 ^ k)) as [|G]; auto. exfalso.
      assert (n * two (- l) < d * two l) by (apply X; left; split; [unfold k, l; lia|lia]). lia. }
  assert (l - 1 <= c <= l) as C by (unfold c; destruct (_ <? _); lia). clearbody c. clear X Up Lo.
  assert (0 <= k + c - 1074) as KC by (unfold k, l in *; lia).
  assert (0 < 2 ^ (k - 1074)) as P by (apply Z.pow_pos_nonneg; unfold k; lia).
  assert (forall x y, 0 <= y -> x * 2 ^ y * 2 ^ (k - 1074) = x * 2 ^ (y + k - 1074)) as R.
  { intros x y Y. rewrite <- Z.mul_assoc, <- Z.pow_add_r by (unfold k; lia). do 2 f_equal. lia. }
  set (e := Z.max 0 (c + 1022)). split.
  - apply Z.lt_gt. apply (Z.mul_lt_mono_pos_r (2 ^ (k - 1074))); auto.
    rewrite <- (Z.mul_assoc d (2 ^ e)), <- Z.pow_add_r, !R by (unfold e; lia).
    replace (1074 + k - 1074) with k by lia. eapply Z.lt_le_trans; [exact C1|]. apply Z.mul_le_mono_nonneg_l; [lia|]. apply Z.pow_le_mono_r; unfold e; lia.
  - intros E. apply (Z.mul_le_mono_pos_r _ _ (2 ^ (k - 1074))); auto.
    rewrite <- (Z.mul_assoc d (2 ^ e)), <- Z.pow_add_r, !R by (unfold e; lia).
    replace (1074 + k - 1074) with k by lia. eapply Z.le_trans; [|exact C2]. apply Z.mul_le_mono_nonneg_l; [lia|]. apply Z.pow_le_mono_r; unfold e in *; lia.
Qed.

(** The parts of [rnd]: a grid step [2^e] and the integer part [q] on it. *)
Lemma rnd_parts n d : 0 <= n -> 0 < d -> exists e q r,
  n * 2 ^ 1074 = q * (d * 2 ^ e) + r /\ 0 <= r < d * 2 ^ e /\ 0 <= e /\ 0 <= q < 2 * top /\ (0 < e -> top <= q) /\
  rnd n d = e * top + (if (d * 2 ^ e <? 2 * r) || (d * 2 ^ e =? 2 * r) && Z.odd q then q + 1 else q).
Proof.
  intros N D. unfold rnd. destruct (Z.eqb_spec n 0) as [->|Nz].
  { exists 0, 0, 0. rewrite Z.pow_0_r, Z.mul_1_r. assert ((d <? 2 * 0) = false) as -> by (apply Z.ltb_ge; lia). cbn [Z.odd]. rewrite andb_false_r. cbn [orb]. unfold top. repeat split; lia. }
  destruct (@grid_spec n d) as (G1 & G2); [lia..|]. set (e := grid n d) in *. assert (0 <= e) as E by (unfold e, grid; lia).
  clearbody e. set (s := e - 1074). replace (1074 - e) with (- s) by (unfold s; lia).
  set (j := 1074 - Z.max 0 (- s)). assert (0 < 2 ^ j) as J by (apply Z.pow_pos_nonneg; unfold j, s; lia).
  assert (two (- s) * 2 ^ j = 2 ^ 1074) as E1 by (unfold two; rewrite <- Z.pow_add_r by (unfold j, s; lia); f_equal; unfold j, s; lia).
  assert (two s * 2 ^ j = 2 ^ e) as E2 by (unfold two; rewrite <- Z.pow_add_r by (unfold j, s; lia); f_equal; unfold j, s; lia).
  rewrite <- E1, <- E2 in *. pose proof (two_up s) as U. pose proof (two_up (- s)) as U'.
  set (v := n * two (- s)) in *. set (u := d * two s) in *. assert (0 < u) as Up by (apply Z.mul_pos_pos; lia).
  assert (0 <= v) as V by (apply Z.mul_nonneg_nonneg; lia).
  pose proof (Z_div_mod v u ltac:(lia)) as Q. destruct (Z.div_eucl v u) as (q & r). destruct Q as (Q & R).
  assert (n * (two (- s) * 2 ^ j) = v * 2 ^ j) as Ev by (unfold v; ring). assert (d * (two s * 2 ^ j) = u * 2 ^ j) as Eu by (unfold u; ring).
  rewrite Ev, Eu in *. exists e, q, (r * 2 ^ j). rewrite <- E2, Eu.
  assert (2 * (r * 2 ^ j) = (2 * r) * 2 ^ j) as Eq2 by ring. rewrite Eq2.
  assert ((u * 2 ^ j <? 2 * r * 2 ^ j) = (u <? 2 * r)) as B1.
  { destruct (Z.ltb_spec u (2 * r)) as [C|C]; [apply Z.ltb_lt; now apply Z.mul_lt_mono_pos_r|apply Z.ltb_ge; apply Z.mul_le_mono_nonneg_r; lia]. }
  assert ((u * 2 ^ j =? 2 * r * 2 ^ j) = (u =? 2 * r)) as B2.
  { destruct (Z.eqb_spec u (2 * r)) as [->|C]; [apply Z.eqb_refl|apply Z.eqb_neq; intros F; apply C; apply Z.mul_reg_r with (2 ^ j); lia]. }
  rewrite B1, B2.
  assert (v < u * 2 ^ 53) as V1 by (apply (Z.mul_lt_mono_pos_r (2 ^ j)); [lia|]; replace (u * 2 ^ 53 * 2 ^ j) with (u * 2 ^ j * 2 ^ 53) by ring; lia).
  repeat split.
  - rewrite Q. ring.
  - apply Z.mul_nonneg_nonneg; lia.
  - apply Z.mul_lt_mono_pos_r; lia.
  - lia.
  - destruct (Z_lt_le_dec q 0); [exfalso; nia|lia].
  - destruct (Z_lt_le_dec q (2 * top)) as [|F]; auto. exfalso. unfold top in F. change (2 * 2 ^ 52) with (2 ^ 53) in F. nia.
  - intros E0. specialize (G2 E0). replace (u * 2 ^ j * 2 ^ 52) with (u * 2 ^ 52 * 2 ^ j) in G2 by ring. apply Z.mul_le_mono_pos_r in G2; [|lia].
    destruct (Z_lt_le_dec q top) as [F|]; auto. exfalso. unfold top in F. nia.
Qed.

Lemma rnd_nonneg n d : 0 <= n -> 0 < d -> 0 <= rnd n d.
Proof.
  intros N D. destruct (rnd_parts N D) as (e & q & r & _ & _ & E & Q & _ & ->). unfold top in *. destruct (_ || _); lia.
Qed.

Theorem nearest_rnd n d : 0 <= n -> 0 < d -> nearest n d (rnd n d).
Proof.
  intros N D. split; [now apply rnd_nonneg|]. destruct (rnd_parts N D) as (e & q & r & V & R & E & Q & Nz & ->).
  intros b' B' Ne. cbv zeta. rewrite V. assert (0 < top) as T by reflexivity.
  pose proof (Z.pow_pos_nonneg 2 e ltac:(lia) E) as P.
  assert (scaled (e * top + q) = q * 2 ^ e) as S0 by (apply scaled_enc; lia).
  assert (scaled (e * top + (q + 1)) = (q + 1) * 2 ^ e) as S1 by (apply scaled_enc; lia).
  assert (Z.even (e * top + q) = negb (Z.odd q)) as Ev.
  { unfold top. rewrite Z.even_add, Z.even_mul. change (Z.even (2 ^ 52)) with true. rewrite orb_true_r, <- Z.negb_odd. now destruct (Z.odd q). }
  assert (Z.even (e * top + (q + 1)) = Z.odd q) as Ev1.
  { unfold top. rewrite Z.even_add, Z.even_mul. change (Z.even (2 ^ 52)) with true. rewrite orb_true_r, Z.even_add, <- Z.negb_odd. now destruct (Z.odd q). }
  assert (b' <= e * top + q -> scaled b' * d <= q * (d * 2 ^ e)) as Lo.
  { intros L. pose proof (@scaled_le b' _ B' L) as X. rewrite S0 in X. replace (q * (d * 2 ^ e)) with (q * 2 ^ e * d) by ring. apply Z.mul_le_mono_nonneg_r; lia. }
  assert (e * top + q < b' -> (q + 1) * (d * 2 ^ e) <= scaled b' * d) as Hi.
  { intros L. pose proof (@scaled_le (e * top + (q + 1)) b') as X. rewrite S1 in X. replace ((q + 1) * (d * 2 ^ e)) with ((q + 1) * 2 ^ e * d) by ring. apply Z.mul_le_mono_nonneg_r; lia. }
  assert (b' < e * top + q -> scaled b' * d < q * (d * 2 ^ e)) as Lo'.
  { intros L. pose proof (@scaled_mono b' _ B' L) as X. rewrite S0 in X. replace (q * (d * 2 ^ e)) with (q * 2 ^ e * d) by ring. apply Z.mul_lt_mono_pos_r; lia. }
  assert (e * top + (q + 1) < b' -> (q + 1) * (d * 2 ^ e) < scaled b' * d) as Hi'.
  { intros L. pose proof (@scaled_mono (e * top + (q + 1)) b') as X. rewrite S1 in X. replace ((q + 1) * (d * 2 ^ e)) with ((q + 1) * 2 ^ e * d) by ring. apply Z.mul_lt_mono_pos_r; lia. }
  clear V. set (u := d * 2 ^ e) in *.
  assert (q * 2 ^ e * d = q * u) as K0 by (unfold u; ring). assert ((q + 1) * 2 ^ e * d = q * u + u) as K1 by (unfold u; ring).
  replace ((q + 1) * u) with (q * u + u) in * by ring. set (w := q * u) in *. clearbody u w.
  set (z := scaled b' * d) in *. clearbody z. set (t := e * top) in *. clearbody t.
  destruct (Z.ltb_spec u (2 * r)) as [C|C]; cbn [orb] in *; [|destruct (Z.eqb_spec u (2 * r)) as [C'|C']; cbn [andb] in *; [destruct (Z.odd q)|]];
    rewrite ?S0, ?S1, ?K0, ?K1, ?Ev, ?Ev1; cbn [negb]; destruct (Z_le_gt_dec b' (t + q)) as [G|G]; lia.
Qed.

Theorem nearest_unique n d b b' : 0 < d -> nearest n d b -> nearest n d b' -> b = b'.
Proof.
  intros D.
  assert (forall b b', b < b' -> nearest n d b -> nearest n d b' -> False) as G.
  { clear b b'. intros b b' L (B & Nb) (B' & Nb').
    pose proof (Nb b' B' ltac:(lia)) as X. pose proof (Nb' b B ltac:(lia)) as Y. cbv zeta in X, Y.
    destruct (Z.eq_dec b' (b + 1)) as [->|Ne].
    - assert (Z.even (b + 1) = negb (Z.even b)) as Ev by (rewrite Z.even_add; now destruct (Z.even b)).
      destruct X as [X|(X & Eb)]; [|rewrite Ev, Eb in Y]; destruct Y as [Y|(Y & Eb')]; try discriminate; lia.
    - pose proof (Nb (b + 1) ltac:(lia) ltac:(lia)) as W. cbv zeta in W.
      pose proof (@scaled_mono b (b + 1) B ltac:(lia)) as M1. pose proof (@scaled_mono (b + 1) b' ltac:(lia) ltac:(lia)) as M2.
      pose proof (Z.mul_lt_mono_pos_r d (scaled b) (scaled (b + 1)) D) as [I1 _]. pose proof (Z.mul_lt_mono_pos_r d (scaled (b + 1)) (scaled b') D) as [I2 _].
      specialize (I1 M1). specialize (I2 M2). lia. }
  intros X Y. destruct (Z.lt_trichotomy b b') as [L|[L|L]]; auto; exfalso; eauto.
Qed.

Lemma rnd_is n d b : 0 <= n -> 0 < d -> nearest n d b -> rnd n d = b.
Proof. intros N D X. eapply nearest_unique; eauto. now apply nearest_rnd. Qed.

(** A value that is a double rounds to itself. *)
Lemma rnd_exact n d b : 0 <= n -> 0 < d -> 0 <= b -> scaled b * d = n * 2 ^ 1074 -> rnd n d = b.
Proof.
  intros N D B E. apply rnd_is; auto. split; auto. intros b' B' Ne. cbv zeta. left. rewrite <- E, Z.sub_diag, Z.abs_0.
  apply Z.abs_pos. intros X. apply Ne. apply scaled_inj; auto. apply Z.mul_reg_r with d; lia.
Qed.

(** Only the ratio matters. *)
Lemma rnd_ratio n d n' d' : 0 <= n -> 0 < d -> 0 <= n' -> 0 < d' -> n * d' = n' * d -> rnd n d = rnd n' d'.
Proof.
  intros N D N' D' E. apply rnd_is; auto. destruct (nearest_rnd N' D') as (B & X). split; auto.
  intros b' B' Ne. specialize (X b' B' Ne). cbv zeta in *. set (b := rnd n' d') in *.
  assert (forall s, Z.abs (n * 2 ^ 1074 - s * d) * d' = Z.abs (n' * 2 ^ 1074 - s * d') * d) as K.
  { intros s. transitivity (Z.abs ((n * 2 ^ 1074 - s * d) * d')); [rewrite Z.abs_mul; now rewrite (Z.abs_eq d') by lia|].
    transitivity (Z.abs ((n' * 2 ^ 1074 - s * d') * d)); [|rewrite Z.abs_mul; now rewrite (Z.abs_eq d) by lia]. f_equal.
    transitivity (n * d' * 2 ^ 1074 - s * d * d'); [ring|]. rewrite E. ring. }
  pose proof (K (scaled b)) as K1. pose proof (K (scaled b')) as K2.
  set (x := Z.abs (n * 2 ^ 1074 - scaled b * d)) in *. set (y := Z.abs (n * 2 ^ 1074 - scaled b' * d)) in *.
  set (x' := Z.abs (n' * 2 ^ 1074 - scaled b * d')) in *. set (y' := Z.abs (n' * 2 ^ 1074 - scaled b' * d')) in *.
  clearbody x y x' y'. destruct X as [X|(X & Ev)].
  - left. apply (Z.mul_lt_mono_pos_r d); [lia|]. apply (Z.mul_lt_mono_pos_r d'); [lia|].
    apply (Z.mul_lt_mono_pos_r d) in X; [|lia]. rewrite <- K1, <- K2 in X. apply (Z.mul_lt_mono_pos_r d) in X; [|lia]. lia.
  - right. split; auto. apply Z.mul_reg_r with d'; [lia|]. rewrite K1, K2. now rewrite X.
Qed.

(** Integers with at most 53 significant bits are doubles. *)
Lemma rep m j : 0 <= m < 2 * top -> 0 <= j -> exists b, 0 <= b /\ scaled b = m * 2 ^ j.
Proof.
  intros M J. destruct (Z.eq_dec m 0) as [->|Nz]; [exists 0; split; [lia|reflexivity]|].
  pose proof (Z.log2_nonneg m) as L0. pose proof (Z.log2_spec m ltac:(lia)) as [L1 L2].
  assert (Z.log2 m < 53) as L3 by (apply Z.log2_lt_pow2; unfold top in *; lia).
  destruct (Z_le_gt_dec j (52 - Z.log2 m)) as [C|C].
  - exists (m * 2 ^ j). assert (0 <= m * 2 ^ j) by (apply Z.mul_nonneg_nonneg; [lia|apply Z.pow_nonneg; lia]). split; auto.
    assert (m * 2 ^ j < 2 * top).
    { apply Z.lt_le_trans with (2 ^ (Z.succ (Z.log2 m)) * 2 ^ j); [apply Z.mul_lt_mono_pos_r; [apply Z.pow_pos_nonneg; lia|lia]|].
      rewrite <- Z.pow_add_r by lia. unfold top. change (2 * 2 ^ 52) with (2 ^ 53). apply Z.pow_le_mono_r; lia. }
    transitivity (scaled (0 * top + m * 2 ^ j)); [now f_equal|]. rewrite scaled_enc by lia. rewrite Z.pow_0_r. ring.
  - set (e := j - (52 - Z.log2 m)). set (m' := m * 2 ^ (52 - Z.log2 m)).
    assert (top <= m' <= 2 * top) as Mm.
    { unfold m', top. change (2 * 2 ^ 52) with (2 ^ 53). split.
      - apply Z.le_trans with (2 ^ Z.log2 m * 2 ^ (52 - Z.log2 m)); [rewrite <- Z.pow_add_r by lia; apply Z.pow_le_mono_r; lia|].
        apply Z.mul_le_mono_nonneg_r; [apply Z.pow_nonneg; lia|lia].
      - apply Z.le_trans with (2 ^ (Z.succ (Z.log2 m)) * 2 ^ (52 - Z.log2 m)); [apply Z.mul_le_mono_nonneg_r; [apply Z.pow_nonneg; lia|lia]|].
        rewrite <- Z.pow_add_r by lia. apply Z.pow_le_mono_r; lia. }
    exists (e * top + m'). assert (0 < top) by reflexivity. split; [unfold e; nia|].
    rewrite scaled_enc by (unfold e; lia). unfold m'. rewrite <- Z.mul_assoc, <- Z.pow_add_r by (unfold e; lia). f_equal. f_equal. unfold e. lia.
Qed.

Lemma rnd_int m j : 0 <= m < 2 * top -> 0 <= j -> scaled (rnd (m * 2 ^ j) 1) = m * 2 ^ j * 2 ^ 1074.
Proof.
  intros M J. destruct (@rep m (j + 1074) M ltac:(lia)) as (b & B & E).
  rewrite Z.pow_add_r in E by lia. assert (0 <= m * 2 ^ j) by (apply Z.mul_nonneg_nonneg; [lia|apply Z.pow_nonneg; lia]).
  rewrite (@rnd_exact _ 1 b); lia.
Qed.

Lemma scaled_scale b n : 0 <= b -> scaled b = n * 2 ^ 1074 -> rnd n 1 = b.
Proof. intros B E. pose proof (scaled_nonneg B). apply rnd_exact; lia. Qed.

(** Rounding is monotone. *)
Lemma rnd_mono n d n' d' : 0 <= n -> 0 < d -> 0 <= n' -> 0 < d' -> n * d' <= n' * d -> rnd n d <= rnd n' d'.
Proof.
  intros N D N' D' L.
  rewrite (@rnd_ratio n d (n * d') (d * d')) by (try apply Z.mul_nonneg_nonneg; try apply Z.mul_pos_pos; try lia; ring).
  rewrite (@rnd_ratio n' d' (n' * d) (d * d')) by (try apply Z.mul_nonneg_nonneg; try apply Z.mul_pos_pos; try lia; ring).
  assert (0 < d * d') as DD by (apply Z.mul_pos_pos; lia). assert (0 <= n * d') as ND by (apply Z.mul_nonneg_nonneg; lia).
  set (a := n * d') in *. set (b := n' * d) in *. set (c := d * d') in *. clearbody a b c.
  destruct (Z_le_gt_dec (rnd a c) (rnd b c)) as [|G]; auto. exfalso.
  destruct (@nearest_rnd a c) as (Ba & Xa); [lia..|]. destruct (@nearest_rnd b c) as (Bb & Xb); [lia..|].
  specialize (Xa (rnd b c) Bb ltac:(lia)). specialize (Xb (rnd a c) Ba ltac:(lia)). cbv zeta in *.
  pose proof (@scaled_mono (rnd b c) (rnd a c) Bb ltac:(lia)) as M. apply (Z.mul_lt_mono_pos_r c) in M; [|lia].
  assert (a <> b) as Ne by (intros ->; lia).
  set (x := scaled (rnd a c) * c) in *. set (y := scaled (rnd b c) * c) in *. clearbody x y.
  assert (0 < 2 ^ 1074) as T by (apply Z.pow_pos_nonneg; lia). set (t := 2 ^ 1074) in *. clearbody t.
  assert (a * t < b * t) by (apply Z.mul_lt_mono_pos_r; lia). lia.
Qed.

(** Powers of two cancel. *)
Lemma two_cancel j x y : 0 <= x -> 0 <= y -> j = x - y -> two j * 2 ^ y = 2 ^ x * two (- j).
Proof. intros X Y ->. unfold two. rewrite <- !Z.pow_add_r by lia. f_equal. lia. Qed.
