(** * Facts about FloatText.v *)
From Verif Require Import Base OMap Json JsonText F64 FloatText.
Open Scope Z_scope.

Set Implicit Arguments.

(** ** Decimals *)

Definition up (k : Z) : Z := 10 ^ Z.max 0 k.
Definition dn (k : Z) : Z := 10 ^ Z.max 0 (- k).
Lemma up_pos k : 0 < up k.
Proof. apply Z.pow_pos_nonneg; lia. Qed.
Lemma dn_pos k : 0 < dn k.
Proof. apply Z.pow_pos_nonneg; lia. Qed.
Lemma two_pos : 0 < 2 ^ 1074.
Proof. apply Z.pow_pos_nonneg; lia. Qed.

Lemma of_dec_eq d k : of_dec d k = rnd (d * up k) (dn k).
Proof.
  unfold of_dec, up, dn. destruct (Z.leb_spec 0 k).
  - rewrite (Z.max_r 0 k), (Z.max_l 0 (- k)) by lia. now rewrite Z.pow_0_r.
  - rewrite (Z.max_l 0 k), (Z.max_r 0 (- k)) by lia. now rewrite Z.pow_0_r, Z.mul_1_r.
Qed.
Lemma of_dec_ratio d k n e : 0 <= d -> 0 <= n -> 0 < e -> d * up k * e = n * dn k -> of_dec d k = rnd n e.
Proof.
  intros D N E X. rewrite of_dec_eq. pose proof (up_pos k). pose proof (dn_pos k). apply rnd_ratio; auto. apply Z.mul_nonneg_nonneg; lia.
Qed.
Lemma of_dec_nonneg d k : 0 <= d -> 0 <= of_dec d k.
Proof. intros D. rewrite of_dec_eq. pose proof (up_pos k). apply rnd_nonneg; [apply Z.mul_nonneg_nonneg; lia|apply dn_pos]. Qed.
Lemma of_dec_mono d d' k : 0 <= d <= d' -> of_dec d k <= of_dec d' k.
Proof.
  intros L. rewrite !of_dec_eq. pose proof (up_pos k). pose proof (dn_pos k).
  assert (d * up k <= d' * up k) by (apply Z.mul_le_mono_nonneg_r; lia).
  assert (0 <= d * up k) by (apply Z.mul_nonneg_nonneg; lia).
  apply rnd_mono; try lia. apply Z.mul_le_mono_nonneg_r; lia.
Qed.
Lemma of_dec_0 k : of_dec 0 k = 0.
Proof. rewrite of_dec_eq. pose proof (dn_pos k). apply rnd_exact; try lia. change (scaled 0) with 0. lia. Qed.
(** A double rounds to itself. *)
Lemma rnd_self b : 0 <= b -> rnd (scaled b) (2 ^ 1074) = b.
Proof. intros B. apply rnd_exact; auto. now apply scaled_nonneg. apply two_pos. Qed.

(** ** The shortest decimal *)

Definition quot (b k : Z) : Z := scaled b * dn k / (2 ^ 1074 * up k).
(** The quotient and the order of the two neighbours, without the cancellation. *)
Lemma around_eq b k : 0 <= b ->
  around b k = let n := scaled b * dn k in let u := 2 ^ 1074 * up k in let q := n / u in let r := n mod u in
    if (u <? 2 * r) || (u =? 2 * r) && Z.odd q then [q + 1; q] else [q; q + 1].
Proof.
  intros B. destruct (scaled_split B) as (E & X0 & S0). unfold around. set (j := expnt b - 1074).
  set (n := if 0 <=? k then _ else _). set (u := if 0 <=? k then _ else _).
  pose proof (two_up j) as Tj. pose proof (two_up (- j)) as Tj'. pose proof (up_pos k) as Up. pose proof (dn_pos k) as Dp.
  assert (n = signif b * two j * dn k) as En by (unfold n, dn; destruct (Z.leb_spec 0 k); [rewrite Z.max_l, Z.pow_0_r by lia; ring|rewrite Z.max_r by lia; reflexivity]).
  assert (u = two (- j) * up k) as Eu by (unfold u, up; destruct (Z.leb_spec 0 k); [rewrite Z.max_r by lia; reflexivity|rewrite Z.max_l, Z.pow_0_r by lia; ring]).
  clearbody n u. set (t := 2 ^ (1074 - Z.max 0 (- j))). assert (0 < t) as T by (apply Z.pow_pos_nonneg; unfold j; lia).
  assert (2 ^ 1074 = two (- j) * t) as E2 by (unfold two, t; rewrite <- Z.pow_add_r by (unfold j; lia); f_equal; unfold j; lia).
  assert (2 ^ expnt b = two j * t) as E3 by (unfold two, t; rewrite <- Z.pow_add_r by (unfold j; lia); f_equal; unfold j; lia).
  cbv zeta. replace (scaled b * dn k) with (n * t) by (rewrite E, E3, En; ring). replace (2 ^ 1074 * up k) with (u * t) by (rewrite E2, Eu; ring).
  assert (0 < u) as U by (rewrite Eu; apply Z.mul_pos_pos; lia). clearbody t. clear En Eu E E2 E3.
  rewrite Z.div_mul_cancel_r, Z.mul_mod_distr_r by lia. unfold Z.div, Z.modulo. destruct (Z.div_eucl n u) as (q & r).
  assert ((u * t <? 2 * (r * t)) = (u <? 2 * r)) as ->.
  { rewrite Z.mul_assoc. destruct (Z.ltb_spec u (2 * r)) as [C|C]; [apply Z.ltb_lt; now apply Z.mul_lt_mono_pos_r|apply Z.ltb_ge; apply Z.mul_le_mono_nonneg_r; lia]. }
  assert ((u * t =? 2 * (r * t)) = (u =? 2 * r)) as ->.
  { rewrite Z.mul_assoc. destruct (Z.eqb_spec u (2 * r)) as [->|C]; [apply Z.eqb_refl|apply Z.eqb_neq; intros F; apply C; apply Z.mul_reg_r with t; lia]. }
  reflexivity.
Qed.
Lemma around_in b k d : 0 <= b -> In d (around b k) <-> d = quot b k \/ d = quot b k + 1.
Proof.
  intros B. rewrite around_eq by assumption. cbv zeta. fold (quot b k). destruct (_ || _); cbn; lia.
Qed.
Lemma fdiv_eq a b : 0 <= a -> 0 < b -> fdiv a b = rnd (scaled a) (scaled b).
Proof.
  intros A B. unfold fdiv. pose proof (@scaled_pos b B) as Sb. pose proof (scaled_nonneg A) as Sa.
  destruct (scaled_split A) as (Ea & Xa & Ma). destruct (@scaled_split b ltac:(lia)) as (Eb & Xb & Mb).
  cbv zeta. set (j := expnt a - expnt b). pose proof (two_up j). pose proof (two_up (- j)).
  assert (0 < signif b) by (destruct (Z.eq_dec (signif b) 0) as [Z0|]; [rewrite Z0 in Eb; lia|lia]).
  apply rnd_ratio; auto; [apply Z.mul_nonneg_nonneg; lia|apply Z.mul_pos_pos; lia|].
  rewrite Ea, Eb. pose proof (@two_cancel j (expnt a) (expnt b) Xa Xb eq_refl) as C.
  transitivity (signif a * signif b * (two j * 2 ^ expnt b)); [ring|]. rewrite C. ring.
Qed.
Lemma fmul_eq a b : 0 <= a -> 0 <= b -> fmul a b = rnd (scaled a * scaled b) (2 ^ 1074 * 2 ^ 1074).
Proof.
  intros A B. unfold fmul. pose proof (scaled_nonneg B) as Sb. pose proof (scaled_nonneg A) as Sa.
  destruct (scaled_split A) as (Ea & Xa & Ma). destruct (@scaled_split b ltac:(lia)) as (Eb & Xb & Mb).
  cbv zeta. set (j := expnt a + expnt b - 2148). pose proof (two_up j). pose proof (two_up (- j)). pose proof two_pos.
  apply rnd_ratio; [apply Z.mul_nonneg_nonneg; [apply Z.mul_nonneg_nonneg|]; lia|lia|apply Z.mul_nonneg_nonneg; lia|apply Z.mul_pos_pos; lia|].
  rewrite Ea, Eb, <- Z.pow_add_r by lia. pose proof (@two_cancel j (expnt a + expnt b) 2148 ltac:(lia) ltac:(lia) eq_refl) as C. rewrite Z.pow_add_r in C by lia.
  change (1074 + 1074) with 2148. transitivity (signif a * signif b * (two j * 2 ^ 2148)); [ring|]. rewrite C. ring.
Qed.
Lemma first_log b : 0 < b -> Z.log2 (signif b) + expnt b = Z.log2 (scaled b).
Proof.
  intros B. destruct (@scaled_split b ltac:(lia)) as (E & X & M). pose proof (@scaled_pos b B). rewrite E.
  assert (0 < signif b) by (destruct (Z.eq_dec (signif b) 0) as [Z0|]; [rewrite Z0 in E; lia|lia]).
  rewrite Z.log2_mul_pow2 by lia. lia.
Qed.
Lemma quot_nonneg b k : 0 <= b -> 0 <= quot b k.
Proof.
  intros B. pose proof (scaled_nonneg B). pose proof (dn_pos k). pose proof (up_pos k). pose proof two_pos.
  apply Z.div_pos; [apply Z.mul_nonneg_nonneg; lia|apply Z.mul_pos_pos; lia].
Qed.

Lemma quot_below b k m : 0 <= b -> 0 <= m <= quot b k -> of_dec m k <= b.
Proof.
  intros B L. etransitivity; [apply (@of_dec_mono m (quot b k)); lia|]. rewrite <- (rnd_self B) at 2. rewrite of_dec_eq.
  pose proof (quot_nonneg k B). pose proof (scaled_nonneg B). pose proof (dn_pos k). pose proof (up_pos k). pose proof two_pos.
  apply rnd_mono; auto; [apply Z.mul_nonneg_nonneg; lia|].
  rewrite <- Z.mul_assoc, (Z.mul_comm (quot b k)), (Z.mul_comm (up k)). apply Z.mul_div_le. apply Z.mul_pos_pos; lia.
Qed.
Lemma quot_above b k m : 0 <= b -> quot b k + 1 <= m -> b <= of_dec m k.
Proof.
  intros B L. pose proof (quot_nonneg k B). etransitivity; [|apply (@of_dec_mono (quot b k + 1) m); lia]. rewrite <- (rnd_self B) at 1. rewrite of_dec_eq.
  pose proof (scaled_nonneg B). pose proof (dn_pos k). pose proof (up_pos k). pose proof two_pos.
  apply rnd_mono; auto; [apply Z.mul_nonneg_nonneg; lia|].
  replace ((quot b k + 1) * up k * 2 ^ 1074) with (2 ^ 1074 * up k * Z.succ (quot b k)) by (rewrite <- Z.add_1_r; ring).
  apply Z.lt_le_incl, Z.mul_succ_div_gt. apply Z.mul_pos_pos; lia.
Qed.

Lemma at_step_some b k d : 0 <= b -> at_step b k = Some d -> of_dec d k = b /\ (d = quot b k \/ d = quot b k + 1).
Proof.
  unfold at_step. intros B F. apply find_some in F as [I E]. apply Z.eqb_eq in E. split; auto. now apply around_in.
Qed.
Lemma at_step_none b k m : 0 <= b -> at_step b k = None -> 0 <= m -> of_dec m k <> b.
Proof.
  intros B F M E. unfold at_step in F. pose proof (find_none _ _ F) as G.
  assert (of_dec (quot b k) k <> b) as G0 by (apply Z.eqb_neq, (G (quot b k)), around_in; auto).
  assert (of_dec (quot b k + 1) k <> b) as G1 by (apply Z.eqb_neq, (G (quot b k + 1)), around_in; auto).
  pose proof (quot_nonneg k B). destruct (Z_le_gt_dec m (quot b k)) as [L|L].
  - apply G0. pose proof (@of_dec_mono m (quot b k) k). pose proof (@quot_below b k (quot b k) B). lia.
  - apply G1. pose proof (@of_dec_mono (quot b k + 1) m k). pose proof (@quot_above b k (quot b k + 1) B). lia.
Qed.

(** At 10^-324 there is always one. *)
Lemma at_step_low b : 0 < b -> at_step b (- 324) <> None.
Proof.
  intros B F. unfold at_step in F. pose proof (find_none _ _ F) as G. clear F. rewrite around_eq in G by lia. cbv zeta in G.
  assert ((0 <=? -324) = false) as K by reflexivity. change (dn (-324)) with (10 ^ 324) in G. change (up (-324)) with 1 in G. rewrite Z.mul_1_r in G.
  set (n := scaled b * 10 ^ 324) in *. set (u := 2 ^ 1074) in *.
  assert (2 * u < 10 ^ 324) as Lt by (apply Z.ltb_lt; vm_compute; reflexivity).
  pose proof two_pos as U. change (0 < u) in U.
  pose proof (Z.div_mod n u ltac:(lia)) as DM. pose proof (Z.mod_pos_bound n u U) as MB.
  pose proof (@scaled_pos b B) as Sp. assert (0 < 10 ^ 324) as Tp by (apply Z.pow_pos_nonneg; lia).
  assert (0 <= n) as N0 by (unfold n; apply Z.mul_nonneg_nonneg; lia). pose proof (Z.div_pos n u N0 U) as Q0.
  assert (forall d, 0 <= d -> Z.abs (d * u - n) * 2 <= u -> of_dec d (- 324) = b) as X.
  { intros d D E. unfold of_dec. rewrite K. change (- -324) with 324. apply rnd_is; auto. split; [lia|].
    intros b' B' Ne. cbv zeta. left. fold u. fold n.
    assert (scaled b' <> scaled b) as Ns by (intros Y; apply Ne; apply scaled_inj; auto; lia).
    assert (10 ^ 324 <= Z.abs (scaled b' * 10 ^ 324 - n)) as Far.
    { unfold n. rewrite <- Z.mul_sub_distr_r, Z.abs_mul, (Z.abs_eq (10 ^ 324)) by lia.
      rewrite <- (Z.mul_1_l (10 ^ 324)) at 1. apply Z.mul_le_mono_nonneg_r; lia. }
    set (a := d * u) in *. set (c := scaled b' * 10 ^ 324) in *. set (t := 10 ^ 324) in *. clearbody a c t n u. lia. }
  set (q := n / u) in *. set (r := n mod u) in *. clearbody q r.
  destruct ((u <? 2 * r) || (u =? 2 * r) && Z.odd q) eqn:C.
  - specialize (G (q + 1) (or_introl eq_refl)). cbn beta in G. apply Z.eqb_neq in G. apply G, X; [lia|].
    assert (u <= 2 * r) by (apply orb_true_iff in C as [C|C]; [apply Z.ltb_lt in C; lia|apply andb_true_iff in C as [C _]; apply Z.eqb_eq in C; lia]).
    replace ((q + 1) * u - n) with (u - r) by (rewrite DM; ring). lia.
  - specialize (G q (or_introl eq_refl)). cbn beta in G. apply Z.eqb_neq in G. apply G, X; [lia|].
    apply orb_false_iff in C as [C _]. apply Z.ltb_ge in C. replace (q * u - n) with (- r) by (rewrite DM; ring). lia.
Qed.

Lemma search_spec b fuel k k' : k - Z.of_nat fuel < k' <= k -> at_step b k' <> None ->
  exists d k1, search fuel b k = (d, k1) /\ at_step b k1 = Some d /\ k' <= k1 <= k /\ forall j, k1 < j <= k -> at_step b j = None.
Proof.
  revert k. induction fuel as [|fuel IH]; intros k L F; [lia|]. cbn [search]. destruct (at_step b k) as [d|] eqn:A.
  - exists d, k. repeat split; auto; lia.
  - assert (k' <> k) by congruence. destruct (IH (k - 1)) as (d & k1 & E & A1 & L1 & M); [lia|auto|].
    exists d, k1. repeat split; auto; try lia. intros j J. destruct (Z.eq_dec j k) as [->|]; auto. apply M. lia.
Qed.

(** How far rounding goes. *)
Lemma rnd_upper n d : 0 <= n -> 0 < d -> 0 < rnd n d -> n * 2 ^ 1074 <= 2 * scaled (rnd n d) * d.
Proof.
  intros N D P. destruct (rnd_parts N D) as (e & q & r & V & R & E & Q & Nz & Eq). rewrite V. rewrite Eq in *.
  pose proof (Z.pow_pos_nonneg 2 e ltac:(lia) E) as W. assert (0 < top) as T by reflexivity.
  assert (0 < d * 2 ^ e) as U by (apply Z.mul_pos_pos; lia).
  destruct ((d * 2 ^ e <? 2 * r) || (d * 2 ^ e =? 2 * r) && Z.odd q) eqn:C.
  - rewrite scaled_enc by lia. replace (2 * ((q + 1) * 2 ^ e) * d) with (q * (d * 2 ^ e) + (d * 2 ^ e) + (q + 1) * (d * 2 ^ e)) by ring.
    assert (0 <= (q + 1) * (d * 2 ^ e)) by (apply Z.mul_nonneg_nonneg; lia). lia.
  - rewrite scaled_enc by lia. assert (0 < q) as Qp.
    { destruct (Z.eq_dec q 0) as [->|]; [|lia]. assert (e = 0) as -> by lia. lia. }
    replace (2 * (q * 2 ^ e) * d) with (q * (d * 2 ^ e) + q * (d * 2 ^ e)) by ring.
    apply orb_false_iff in C as [C _]. apply Z.ltb_ge in C.
    assert (1 * (d * 2 ^ e) <= q * (d * 2 ^ e)) by (apply Z.mul_le_mono_nonneg_r; lia). lia.
Qed.
(** Normal numbers: the relative error is at most 2^-53. *)
Lemma rnd_error n d : 0 <= n -> 0 < d -> top <= rnd n d ->
  2 * top * Z.abs (n * 2 ^ 1074 - scaled (rnd n d) * d) <= scaled (rnd n d) * d.
Proof.
  intros N D P. destruct (rnd_parts N D) as (e & q & r & V & R & E & Q & Nz & Eq). rewrite V. rewrite Eq in *.
  pose proof (Z.pow_pos_nonneg 2 e ltac:(lia) E) as W. assert (0 < top) as T by reflexivity.
  assert (0 < d * 2 ^ e) as U by (apply Z.mul_pos_pos; lia).
  assert (forall x, top <= x -> top * (d * 2 ^ e) <= x * (d * 2 ^ e)) as Mo by (intros x Hx; apply Z.mul_le_mono_nonneg_r; lia).
  destruct ((d * 2 ^ e <? 2 * r) || (d * 2 ^ e =? 2 * r) && Z.odd q) eqn:C.
  - rewrite scaled_enc by lia. replace ((q + 1) * 2 ^ e * d) with ((q + 1) * (d * 2 ^ e)) by ring.
    replace (q * (d * 2 ^ e) + r - (q + 1) * (d * 2 ^ e)) with (- (d * 2 ^ e - r)) by ring. rewrite Z.abs_opp, Z.abs_eq by lia.
    assert (top <= q + 1) as Tq by (destruct (Z.eq_dec e 0) as [->|]; lia). specialize (Mo _ Tq).
    assert (d * 2 ^ e <= 2 * r) by (apply orb_true_iff in C as [C|C]; [apply Z.ltb_lt in C; lia|apply andb_true_iff in C as [C _]; apply Z.eqb_eq in C; lia]).
    etransitivity; [|exact Mo]. replace (2 * top * (d * 2 ^ e - r)) with (top * (2 * (d * 2 ^ e - r))) by ring. apply Z.mul_le_mono_nonneg_l; lia.
  - rewrite scaled_enc by lia. replace (q * 2 ^ e * d) with (q * (d * 2 ^ e)) by ring.
    replace (q * (d * 2 ^ e) + r - q * (d * 2 ^ e)) with r by ring. rewrite Z.abs_eq by lia.
    assert (top <= q) as Tq by (destruct (Z.eq_dec e 0) as [->|]; lia). specialize (Mo _ Tq).
    apply orb_false_iff in C as [C _]. apply Z.ltb_ge in C.
    etransitivity; [|exact Mo]. replace (2 * top * r) with (top * (2 * r)) by ring. apply Z.mul_le_mono_nonneg_l; lia.
Qed.

Lemma first_step_max b m e : 0 < b -> 0 <= m -> of_dec m e = b -> e <= first_step b.
Proof.
  intros B M E. assert (m <> 0) as M0 by (intros ->; rewrite of_dec_0 in E; lia).
  rewrite of_dec_eq in E. pose proof (up_pos e) as Up. pose proof (dn_pos e) as Dp. pose proof two_pos as Tp.
  pose proof (@rnd_upper (m * up e) (dn e)) as R. rewrite E in R. specialize (R ltac:(apply Z.mul_nonneg_nonneg; lia) Dp B).
  pose proof (@scaled_pos b B) as Sp. pose proof (Z.log2_spec _ Sp) as [_ L]. pose proof (Z.log2_nonneg (scaled b)) as L0.
  unfold first_step. rewrite first_log by lia. set (l := Z.log2 (scaled b)) in *.
  assert (1 * up e <= m * up e) as U1 by (apply Z.mul_le_mono_nonneg_r; lia).
  assert (up e * 2 ^ 1074 <= m * up e * 2 ^ 1074) as U2 by (apply Z.mul_le_mono_nonneg_r; lia).
  assert (2 * scaled b * dn e < 2 ^ (l + 2) * dn e) as U3.
  { apply Z.mul_lt_mono_pos_r; [lia|]. replace (l + 2) with (Z.succ (Z.succ l)) by lia. rewrite Z.pow_succ_r by lia. lia. }
  assert (up e * 2 ^ 1074 < 2 ^ (l + 2) * dn e) as U4 by lia. clear R U1 U2 U3.
  destruct (Z_le_gt_dec 0 e) as [C|C].
  - unfold up, dn in U4. rewrite (Z.max_r 0 e), (Z.max_l 0 (- e)) in U4 by lia. rewrite Z.pow_0_r, Z.mul_1_r in U4.
    assert (2 ^ (3 * e) <= 10 ^ e) as P by (rewrite Z.pow_mul_r by lia; apply Z.pow_le_mono_l; lia).
    assert (2 ^ (3 * e + 1074) < 2 ^ (l + 2)) as P2.
    { rewrite Z.pow_add_r by lia. eapply Z.le_lt_trans; [|exact U4]. apply Z.mul_le_mono_nonneg_r; lia. }
    apply Z.pow_lt_mono_r_iff in P2; [|lia..]. destruct (Z.leb_spec 0 (l - 1072)); [|lia]. apply Z.div_le_lower_bound; lia.
  - destruct (Z.leb_spec 0 (l - 1072)) as [C1|C1]; [pose proof (Z.div_pos (l - 1072) 3); lia|].
    unfold up, dn in U4. rewrite (Z.max_l 0 e), (Z.max_r 0 (- e)) in U4 by lia. rewrite Z.pow_0_r, Z.mul_1_l in U4.
    assert (10 ^ (- e) <= 2 ^ (4 * - e)) as P by (rewrite (Z.pow_mul_r 2) by lia; apply Z.pow_le_mono_l; lia).
    assert (2 ^ 1074 < 2 ^ (l + 2 + 4 * - e)) as P2.
    { rewrite (Z.pow_add_r 2 (l + 2)) by lia. eapply Z.lt_le_trans; [exact U4|]. apply Z.mul_le_mono_nonneg_l; [apply Z.pow_nonneg; lia|lia]. }
    apply Z.pow_lt_mono_r_iff in P2; [|lia..]. apply Z.div_le_lower_bound; lia.
Qed.

Lemma scaled_bound b : 0 < b < inf -> scaled b < 2 ^ 2098.
Proof.
  intros B. pose proof (@scaled_mono b inf ltac:(lia) ltac:(lia)) as M. eapply Z.lt_le_trans; [exact M|]. apply Z.leb_le. vm_compute. reflexivity.
Qed.

(** What [shortest] returns: digits that are read back by a correct reader, with
    the largest possible power of ten. *)
Theorem shortest_spec b d k : 0 < b < inf -> shortest b = (d, k) ->
  0 < d /\ of_dec d k = b /\ (forall m e, 0 <= m -> of_dec m e = b -> e <= k) /\ -324 <= k <= 342 /\
  (d = quot b k \/ d = quot b k + 1).
Proof.
  intros B E. pose proof (@scaled_pos b ltac:(lia)) as Sp. pose proof (scaled_bound B) as Sb.
  assert (-324 <= first_step b <= 342) as Fb.
  { unfold first_step. rewrite first_log by lia. pose proof (Z.log2_nonneg (scaled b)). assert (Z.log2 (scaled b) < 2098) by (apply Z.log2_lt_pow2; lia).
    destruct (Z.leb_spec 0 (Z.log2 (scaled b) - 1072)); split.
    - pose proof (Z.div_pos (Z.log2 (scaled b) - 1072) 3). lia.
    - apply Z.div_le_upper_bound; lia.
    - apply Z.div_le_lower_bound; lia.
    - apply Z.div_le_upper_bound; lia. }
  unfold shortest in E.
  destruct (@search_spec b (Z.to_nat (first_step b + 325)) (first_step b) (-324)) as (d1 & k1 & E1 & A & L & M); [lia|apply at_step_low; lia|].
  rewrite E in E1. injection E1 as <- <-. destruct (@at_step_some b k d ltac:(lia) A) as [A1 A2].
  assert (0 <= d) as D0 by (pose proof (@quot_nonneg b k ltac:(lia)); lia).
  repeat split; auto; try lia.
  - destruct (Z.eq_dec d 0) as [->|]; [rewrite of_dec_0 in A1; lia|lia].
  - intros m e Hm He. destruct (Z_le_gt_dec e k) as [|G]; auto. exfalso.
    pose proof (@first_step_max b m e ltac:(lia) Hm He). eapply at_step_none; [|apply (M e)|exact Hm|exact He]; lia.
Qed.

(** ** [f64_from_parts] on exact operands *)

Lemma rnd_ge1 n : 1 <= n -> 0 < rnd n 1.
Proof. intros N. apply Z.lt_le_trans with (rnd 1 1); [apply Z.ltb_lt; vm_compute; reflexivity|]. apply rnd_mono; lia. Qed.
Lemma pow10_pos k : 0 <= k -> 0 < pow10 k.
Proof. intros K. apply rnd_ge1. apply (Z.pow_le_mono_r 10 0 k); lia. Qed.
Lemma pow10_exact k : 0 <= k <= 22 -> scaled (pow10 k) = 10 ^ k * 2 ^ 1074.
Proof.
  intros K. unfold pow10. assert (10 ^ k = 5 ^ k * 2 ^ k) as E by (rewrite <- Z.pow_mul_l; reflexivity). rewrite E. apply rnd_int; [|lia].
  split; [apply Z.pow_nonneg; lia|]. apply Z.le_lt_trans with (5 ^ 22); [apply Z.pow_le_mono_r; lia|reflexivity].
Qed.

(** A number of 53 significant bits. *)
Definition exact (n : Z) : Prop := exists m j, n = m * 2 ^ j /\ 0 <= m < 2 * top /\ 0 <= j.
Lemma exact_small n : 0 <= n < 2 * top -> exact n.
Proof. intros N. exists n, 0. rewrite Z.pow_0_r, Z.mul_1_r. repeat split; lia. Qed.
Lemma of_u64_exact n : exact n -> scaled (of_u64 n) = n * 2 ^ 1074.
Proof. intros (m & j & -> & M & J). now apply rnd_int. Qed.
Lemma exact_nonneg n : exact n -> 0 <= n.
Proof. intros (m & j & -> & M & J). apply Z.mul_nonneg_nonneg; [lia|apply Z.pow_nonneg; lia]. Qed.

Lemma parts_down sig k : exact (Z.of_N sig) -> 0 < k <= 22 -> from_parts sig (- k) = Some (of_dec (Z.of_N sig) (- k)).
Proof.
  intros X K. unfold from_parts. rewrite Z.abs_opp, Z.abs_eq by lia. rewrite Z.div_small by lia. change (Z.to_N (0 + 1)) with 1%N. cbn [N.iter Pos.iter].
  unfold round_parts. rewrite Z.abs_opp, Z.abs_eq by lia. rewrite (proj2 (Z.leb_le k 308)) by lia.
  rewrite (proj2 (Z.leb_gt 0 (- k))) by lia. rewrite Z.opp_involutive. f_equal.
  rewrite fdiv_eq by (try apply pow10_pos; try (apply rnd_nonneg; lia); lia).
  rewrite pow10_exact, of_u64_exact by (auto; lia). unfold of_dec. rewrite (proj2 (Z.leb_gt 0 (- k))) by lia. rewrite Z.opp_involutive.
  pose proof two_pos. assert (0 < 10 ^ k) by (apply Z.pow_pos_nonneg; lia).
  apply rnd_ratio; lia.
Qed.
Lemma parts_up sig k : exact (Z.of_N sig) -> 0 <= k <= 22 -> of_dec (Z.of_N sig) k < inf -> from_parts sig k = Some (of_dec (Z.of_N sig) k).
Proof.
  intros X K F. unfold from_parts. rewrite Z.abs_eq by lia. rewrite Z.div_small by lia. change (Z.to_N (0 + 1)) with 1%N. cbn [N.iter Pos.iter].
  unfold round_parts. rewrite Z.abs_eq by lia. rewrite (proj2 (Z.leb_le k 308)) by lia. rewrite (proj2 (Z.leb_le 0 k)) by lia.
  assert (fmul (of_u64 (Z.of_N sig)) (pow10 k) = of_dec (Z.of_N sig) k) as ->.
  { assert (0 <= pow10 k) as Pk by (pose proof (@pow10_pos k); lia). rewrite fmul_eq by (try (apply rnd_nonneg; lia); exact Pk). unfold of_dec. rewrite (proj2 (Z.leb_le 0 k)) by lia. rewrite pow10_exact, of_u64_exact by (auto; lia).
    pose proof two_pos. assert (0 < 10 ^ k) by (apply Z.pow_pos_nonneg; lia).
    apply rnd_ratio; lia. }
  cbv zeta. now rewrite (proj2 (Z.ltb_lt _ _) F).
Qed.

(** ** Digits *)

Definition val (ds : list byte) (a : N) : N := fold_left (fun a b => a * 10 + (bN b - 48))%N ds a.
Lemma val_app a b n : val (a ++ b) n = val b (val a n).
Proof. apply fold_left_app. Qed.
Lemma val_ge ds n : (n <= val ds n)%N.
Proof.
  revert n. induction ds as [|c ds IH]; intros n; cbn; [lia|]. etransitivity; [|apply IH]. lia.
Qed.
Lemma take_all ds n : (val ds n < 2 ^ 64)%N -> take n ds = (val ds n, []).
Proof.
  revert n. induction ds as [|c ds IH]; intros n L; [reflexivity|]. cbn [take]. change (val (c :: ds) n) with (val ds (n * 10 + (bN c - 48))) in *.
  rewrite (proj2 (N.ltb_lt _ _)); [now apply IH|]. eapply N.le_lt_trans; [apply val_ge|exact L].
Qed.
Lemma val_zeros k n : 0 <= k -> val (zeros k) n = (n * 10 ^ Z.to_N k)%N.
Proof.
  intros K. unfold zeros. rewrite <- (Z2N.id k K) at 1. rewrite <- N_nat_Z, Nat2Z.id. rewrite <- (N2Nat.id (Z.to_N k)) at 2.
  revert n. induction (N.to_nat (Z.to_N k)) as [|j IH]; intros n; [cbn; lia|].
  cbn [repeat]. change (val (x30 :: repeat x30 j) n) with (val (repeat x30 j) (n * 10 + 0)). rewrite IH, Nat2N.inj_succ, N.pow_succ_r'. lia.
Qed.
Lemma zeros_digits k : forallb is_digit (zeros k) = true.
Proof. unfold zeros. induction (Z.to_nat k); [reflexivity|exact IHn]. Qed.

(** Length of a number written in decimal. *)
Lemma decimal_length n : (0 < n)%N -> 10 ^ (lenZ (decimal n) - 1) <= Z.of_N n < 10 ^ lenZ (decimal n).
Proof.
  intros P. destruct (decimal_spec format64 read_f64 n) as (z & ds & E & D & V & Z0). rewrite E. unfold lenZ. cbn [length].
  rewrite Nat2Z.inj_succ. replace (Z.succ (Z.of_nat (length ds)) - 1) with (Z.of_nat (length ds)) by lia.
  cbn [forallb] in D. apply andb_true_iff in D as [Dz Dd].
  assert (forall ds a, forallb is_digit ds = true ->
    Z.of_N a * 10 ^ Z.of_nat (length ds) <= Z.of_N (val ds a) < (Z.of_N a + 1) * 10 ^ Z.of_nat (length ds)) as G.
  { clear. induction ds as [|c ds IH]; intros a D; [cbn; lia|]. cbn [forallb] in D. apply andb_true_iff in D as [Dc Dd].
    change (val (c :: ds) a) with (val ds (a * 10 + (bN c - 48))). specialize (IH (a * 10 + (bN c - 48))%N Dd).
    unfold is_digit in Dc. apply andb_true_iff in Dc as [C1 C2]. apply N.leb_le in C1. apply N.leb_le in C2.
    cbn [length]. rewrite Nat2Z.inj_succ, Z.pow_succ_r by lia. set (t := 10 ^ Z.of_nat (length ds)) in *.
    assert (0 < t) by (apply Z.pow_pos_nonneg; lia). clearbody t.
    assert (Z.of_N (a * 10 + (bN c - 48)) = Z.of_N a * 10 + (Z.of_N (bN c) - 48)) as X by lia. rewrite X in IH.
    assert (0 <= (Z.of_N (bN c) - 48) * t) by (apply Z.mul_nonneg_nonneg; lia).
    assert ((Z.of_N (bN c) - 48 + 1) * t <= 10 * t) by (apply Z.mul_le_mono_nonneg_r; lia).
    lia. }
  specialize (G ds (0 * 10 + (bN z - 48))%N Dd). change (val ds (0 * 10 + (bN z - 48))) with (value_of (z :: ds)) in G. rewrite V in G.
  unfold is_digit in Dz. apply andb_true_iff in Dz as [C1 C2]. apply N.leb_le in C1. apply N.leb_le in C2.
  assert (bN z <> 48)%N as Nz.
  { intros X. destruct Z0 as [_ ->]; [|lia]. unfold beq. rewrite X. reflexivity. }
  rewrite Z.pow_succ_r by lia. set (t := 10 ^ Z.of_nat (length ds)) in *. assert (0 < t) by (apply Z.pow_pos_nonneg; lia). clearbody t.
  assert (Z.of_N (0 * 10 + (bN z - 48)) = Z.of_N (bN z) - 48) as X by lia. rewrite X in G.
  assert (1 * t <= (Z.of_N (bN z) - 48) * t) by (apply Z.mul_le_mono_nonneg_r; lia).
  assert ((Z.of_N (bN z) - 48 + 1) * t <= 10 * t) by (apply Z.mul_le_mono_nonneg_r; lia). lia.
Qed.

(** ** The shape of a number and reading it *)

(** Integer part, fraction and exponent. *)
Definition int_part (ip : list byte) : Prop :=
  exists z more, ip = z :: more /\ forallb is_digit ip = true /\ (beq z x30 = true -> more = []).
Definition frac_part (fr : list byte) : Prop := fr = [] \/ exists fd, fr = x2e :: fd /\ fd <> [] /\ forallb is_digit fd = true.
Definition exp_part (ex : list byte) : Prop :=
  ex = [] \/ exists c sg ed, ex = c :: sg ++ ed /\ (c = x65 \/ c = x45) /\ (sg = [] \/ sg = [x2b] \/ sg = [x2d]) /\ ed <> [] /\ forallb is_digit ed = true.
Lemma exp_letter c : c = x65 \/ c = x45 -> is_digit c = false /\ beq c x2e = false /\ beq c x65 || beq c x45 = true.
Proof. intros [->| ->]; repeat split. Qed.

Lemma digit_not_plus z : is_digit z = true -> beq z x2b = false.
Proof. unfold is_digit, beq. intros D. apply andb_true_iff in D as [D _]. apply N.leb_le in D. apply N.eqb_neq. change (bN x2b) with 43%N. lia. Qed.

Lemma number_shape fread neg ip fr ex r : int_part ip -> frac_part fr -> exp_part ex -> fr ++ ex <> [] -> stops r ->
  number fread ((if neg : bool then [x2d] else []) ++ ip ++ fr ++ ex ++ r) = floating fread ((if neg then [x2d] else []) ++ ip ++ fr ++ ex) r.
Proof.
  intros (z & more & Ei & Di & Zi) F X Ne R. unfold number.
  assert (forall s, match (if neg then [x2d] else []) ++ ip ++ s with
          | [] => (false, (if neg then [x2d] else []) ++ ip ++ s)
          | b :: r0 => if beq b x2d then (true, r0) else (false, (if neg then [x2d] else []) ++ ip ++ s) end = (neg, ip ++ s)) as S0.
  { intros s. destruct neg; [reflexivity|]. subst ip. cbn [app]. cbn [forallb] in Di. apply andb_true_iff in Di as [Dz _].
    now rewrite (digit_not_minus _ Dz). }
  rewrite S0. clear S0.
  assert (match ex ++ r with b :: _ => is_digit b = false /\ beq b x2e = false | [] => True end) as Xr.
  { destruct X as [->|(c & sg & ed & -> & Lc & _)]; [|destruct (exp_letter Lc) as (? & ? & _); split; assumption]. cbn [app]. destruct r; cbn in R |- *; tauto. }
  assert (digits (ip ++ fr ++ ex ++ r) = (ip, fr ++ ex ++ r)) as ->.
  { apply digits_app; auto. destruct F as [->|(fd & -> & _)]; [|reflexivity]. cbn [app]. destruct (ex ++ r); tauto. }
  rewrite Ei at 1. cbv iota beta.
  assert (beq z x30 && negb match more with [] => true | _ :: _ => false end = false) as ->.
  { destruct (beq z x30); [|reflexivity]. now rewrite (Zi eq_refl). }
  assert (fraction (fr ++ ex ++ r) = Some (fr, ex ++ r)) as ->.
  { destruct F as [->|(fd & -> & Nf & Df)].
    - cbn [app]. destruct (ex ++ r) as [|b t]; [reflexivity|]. unfold fraction. now rewrite (proj2 Xr).
    - unfold fraction. cbn [app]. rewrite beq_refl. rewrite digits_app; [|exact Df|destruct (ex ++ r); tauto].
      destruct fd; [congruence|reflexivity]. }
  assert (exponent (ex ++ r) = Some (ex, r)) as ->.
  { destruct X as [->|(cl & sg & ed & -> & Lc & Sg & Ned & Ded)]; [now apply no_exponent|].
    unfold exponent. cbn [app]. rewrite (proj2 (proj2 (exp_letter Lc))).
    destruct ed as [|c ed]; [congruence|].
    assert (match (sg ++ c :: ed) ++ r with [] => ([], (sg ++ c :: ed) ++ r) | c0 :: r1 => if beq c0 x2b || beq c0 x2d then ([c0], r1) else ([], (sg ++ c :: ed) ++ r) end
            = (sg, (c :: ed) ++ r)) as ->.
    { destruct Sg as [->|[->| ->]]; [|reflexivity|reflexivity]. cbn [app]. cbn [forallb] in Ded. apply andb_true_iff in Ded as [Dc _].
      now rewrite (digit_not_plus _ Dc), (digit_not_minus _ Dc). }
    rewrite digits_app; [reflexivity|exact Ded|now apply (stops_digit read_f64)]. }
  destruct fr as [|f0 fr']; [|rewrite Ei; reflexivity]. destruct ex as [|x0 ex']; [exfalso; now apply Ne|]. rewrite Ei. reflexivity.
Qed.

(** The value of an exponent part. *)
Definition exp_val (ex : list byte) : Z :=
  match ex with
  | [] => 0
  | _ :: r => match r with
              | c :: r1 => if beq c x2d then - Z.of_N (value_of r1) else if beq c x2b then Z.of_N (value_of r1) else Z.of_N (value_of r)
              | [] => 0
              end
  end.
Lemma with_exponent_shape parts sig start ex : exp_part ex -> Z.abs (exp_val ex) < 2 ^ 30 -> Z.abs start < 2 ^ 30 ->
  with_exponent parts sig start ex = parts sig (start + exp_val ex).
Proof.
  intros [->|(cl & sg & ed & -> & Lc & Sg & Ne & D)] L S0; [cbn; f_equal; lia|].
  destruct ed as [|c ed]; [congruence|]. assert (is_digit c = true) as Dc by (cbn in D; now apply andb_true_iff in D).
  assert (digits (c :: ed) = (c :: ed, [])) as Dg by (pose proof (@digits_app (c :: ed) [] D I) as Y; now rewrite app_nil_r in Y).
  unfold with_exponent. destruct Sg as [->|[->| ->]]; cbn [app].
  - cbn [app exp_val] in L |- *. rewrite (digit_not_minus _ Dc), (digit_not_plus _ Dc) in L |- *. rewrite Dg. cbn [fst].
    set (e := Z.of_N (value_of (c :: ed))) in *. assert (0 <= e) by (unfold e; lia). clearbody e.
    rewrite (proj2 (Z.leb_gt (2 ^ 31) e)) by lia. f_equal. unfold clamp. lia.
  - cbn [app exp_val] in L |- *. change (beq x2b x2d) with false in *. change (beq x2b x2b) with true in *. cbv iota in *. rewrite Dg. cbn [fst].
    set (e := Z.of_N (value_of (c :: ed))) in *. assert (0 <= e) by (unfold e; lia). clearbody e.
    rewrite (proj2 (Z.leb_gt (2 ^ 31) e)) by lia. f_equal. unfold clamp. lia.
  - cbn [app exp_val] in L |- *. change (beq x2d x2d) with true in *. change (beq x2d x2b) with false. cbv iota in *. rewrite Dg. cbn [fst].
    set (e := Z.of_N (value_of (c :: ed))) in *. assert (0 <= e) by (unfold e; lia). clearbody e.
    rewrite (proj2 (Z.leb_gt (2 ^ 31) e)) by lia. f_equal. unfold clamp. lia.
Qed.

Lemma read_shape parts ip fr ex : int_part ip -> frac_part fr -> exp_part ex -> fr ++ ex <> [] ->
  (val (tl fr) (val ip 0) < 2 ^ 64)%N -> Z.abs (exp_val ex) < 2 ^ 30 -> lenZ fr < 2 ^ 30 ->
  read_unsigned parts (ip ++ fr ++ ex) = parts (val (tl fr) (val ip 0)) (exp_val ex - lenZ (tl fr)).
Proof.
  intros (z & more & Ei & Di & Zi) F X Ne V L Lf. unfold read_unsigned.
  assert (match ex with b :: _ => is_digit b = false /\ beq b x2e = false | [] => True end) as Xr.
  { destruct X as [->|(cl & sg & ed & -> & Lc & _)]; [exact I|destruct (exp_letter Lc) as (? & ? & _); split; assumption]. }
  assert (digits (ip ++ fr ++ ex) = (ip, fr ++ ex)) as ->.
  { apply digits_app; auto. destruct F as [->|(fd & -> & _)]; [|reflexivity]. cbn [app]. destruct ex; tauto. }
  assert (val ip 0 < 2 ^ 64)%N as Vi by (eapply N.le_lt_trans; [apply val_ge|exact V]).
  rewrite (@take_all _ _ Vi). destruct F as [->|(fd & -> & Nf & Df)].
  - cbn [app tl] in *. destruct ex as [|x ex]; [congruence|]. rewrite (proj2 Xr). change (lenZ []) with 0. rewrite with_exponent_shape by (auto; lia).
    change (val [] (val ip 0)) with (val ip 0). f_equal. lia.
  - cbn [app tl]. rewrite beq_refl. assert (digits (fd ++ ex) = (fd, ex)) as ->.
    { apply digits_app; auto. destruct ex; tauto. }
    cbn [tl] in V. rewrite (@take_all _ _ V). unfold lenZ in *. cbn [length] in *. rewrite with_exponent_shape by (auto; lia).
    f_equal. lia.
Qed.

(** ** Reading what was written *)

(** The significand and the exponent the reader extracts from [layout d k]. *)
Definition spread (d k : Z) : Z * Z :=
  if (0 <=? k) && (lenZ (decimal (Z.to_N d)) + k <=? 16) then (d * 10 ^ (k + 1), -1) else (d, k).

Lemma expo_shape z : exp_part (x65 :: expo z) /\ exp_val (x65 :: expo z) = z.
Proof.
  unfold expo. destruct (decimal_spec format64 read_f64 (Z.to_N (Z.abs z))) as (c & ds & E & D & V & _). rewrite E.
  split.
  - right. exists x65, (if z <? 0 then [x2d] else []), (c :: ds). repeat split; auto; [|discriminate]. destruct (z <? 0); auto.
  - unfold exp_val. destruct (Z.ltb_spec z 0).
    + change ([x2d] ++ c :: ds) with (x2d :: c :: ds). cbv iota. change (beq x2d x2d) with true. cbv iota. rewrite V. lia.
    + change ([] ++ c :: ds) with (c :: ds). assert (is_digit c = true) as Dc by (cbn in D; now apply andb_true_iff in D).
      cbv iota. rewrite (digit_not_minus _ Dc), (digit_not_plus _ Dc), V. lia.
Qed.

Lemma layout_read parts d k : 0 < d < 2 ^ 60 -> -400 <= k <= 400 ->
  exists ip fr ex, layout d k = ip ++ fr ++ ex /\ int_part ip /\ frac_part fr /\ exp_part ex /\ fr ++ ex <> [] /\
    read_unsigned parts (layout d k) = parts (Z.to_N (fst (spread d k))) (snd (spread d k)).
Proof.
  intros Dd Kk. unfold layout, spread.
  pose proof (@decimal_length (Z.to_N d) ltac:(lia)) as Len. rewrite Z2N.id in Len by lia.
  destruct (decimal_spec format64 read_f64 (Z.to_N d)) as (z & more & E & D & V & Z0). set (ds := decimal (Z.to_N d)) in *.
  assert (int_part ds) as Ip.
  { exists z, more. rewrite E. repeat split; auto. intros B. now destruct (Z0 B). }
  assert (beq z x30 = false) as Zz by (destruct (beq z x30); auto; destruct (Z0 eq_refl); lia).
  assert (val ds 0 = Z.to_N d) as Vd by (rewrite E; exact V).
  assert (forallb is_digit ds = true) as Dds by (rewrite E; exact D).
  assert (1 <= lenZ ds) as L1 by (rewrite E; unfold lenZ; cbn [length]; lia).
  assert (lenZ ds <= 20) as L20.
  { assert (10 ^ (lenZ ds - 1) < 10 ^ 19) as X by (eapply Z.le_lt_trans; [apply Len|]; apply Z.lt_trans with (2 ^ 60); [lia|reflexivity]).
    apply Z.pow_lt_mono_r_iff in X; lia. }
  change (Z.of_nat (length ds)) with (lenZ ds).
  assert (forall i, int_part (firstn (S i) ds)) as If.
  { intros i. exists z, (firstn i more). rewrite E. cbn [firstn]. repeat split.
    - change (z :: firstn i more) with (firstn (S i) (z :: more)). rewrite <- E. apply forallb_forall. intros x Hx. rewrite forallb_forall in Dds. apply Dds.
      rewrite <- (firstn_skipn (S i) ds). apply in_or_app. auto.
    - intros B. congruence. }
  assert (forall i, forallb is_digit (skipn i ds) = true) as Is.
  { intros i. apply forallb_forall. intros x Hx. rewrite forallb_forall in Dds. apply Dds. rewrite <- (firstn_skipn i ds). apply in_or_app. auto. }
  clearbody ds.
  destruct ((0 <=? k) && (lenZ ds + k <=? 16)) eqn:C1; [|destruct ((0 <? lenZ ds + k) && (lenZ ds + k <=? 16)) eqn:C2;
    [|destruct ((-5 <? lenZ ds + k) && (lenZ ds + k <=? 0)) eqn:C3; [|destruct (lenZ ds =? 1) eqn:C4]]].
  - apply andb_true_iff in C1 as [C1 C1']. apply Z.leb_le in C1. apply Z.leb_le in C1'.
    exists (ds ++ zeros k), [x2e; x30], []. rewrite app_nil_r.
    assert (int_part (ds ++ zeros k)) as Ip'.
    { exists z, (more ++ zeros k). rewrite E. repeat split; [|intros B; congruence]. change ((z :: more) ++ zeros k) with ((z :: more) ++ zeros k).
      rewrite forallb_app, D, zeros_digits. reflexivity. }
    assert (frac_part [x2e; x30]) as Fp by (right; exists [x30]; repeat split; discriminate).
    assert (val (tl [x2e; x30]) (val (ds ++ zeros k) 0) = Z.to_N (d * 10 ^ (k + 1))) as Ev.
    { rewrite val_app, val_zeros, Vd by lia. cbn [tl val fold_left]. change (bN x30 - 48)%N with 0%N. rewrite Z.pow_add_r by lia.
      apply N2Z.inj. rewrite Z2N.id by (apply Z.mul_nonneg_nonneg; [lia|apply Z.mul_nonneg_nonneg; [apply Z.pow_nonneg|]; lia]).
      rewrite N2Z.inj_add, !N2Z.inj_mul, N2Z.inj_pow, !Z2N.id by lia. change (Z.of_N 10) with 10. change (Z.of_N 0) with 0. ring. }
    repeat split; auto; [now rewrite <- app_assoc|now left|discriminate|].
    rewrite app_assoc. rewrite <- (app_nil_r [x2e; x30]). rewrite read_shape; auto; [rewrite Ev; reflexivity|now left|discriminate| |reflexivity|reflexivity].
    rewrite Ev. rewrite Z.pow_add_r, Z.mul_assoc by lia.
    assert (d * 10 ^ k < 10 ^ 16) as B16.
    { apply Z.lt_le_trans with (10 ^ lenZ ds * 10 ^ k); [apply Z.mul_lt_mono_pos_r; [apply Z.pow_pos_nonneg; lia|lia]|].
      rewrite <- Z.pow_add_r by lia. apply Z.pow_le_mono_r; lia. }
    apply N2Z.inj_lt. rewrite Z2N.id; [|apply Z.mul_nonneg_nonneg; [apply Z.mul_nonneg_nonneg; [|apply Z.pow_nonneg]|]; lia].
    change (Z.of_N (2 ^ 64)) with (2 ^ 64). lia.
  - apply andb_true_iff in C2 as [C2 C2']. apply Z.ltb_lt in C2. apply Z.leb_le in C2'.
    assert (k < 0) as Kn by (apply andb_false_iff in C1 as [C1|C1]; [now apply Z.leb_gt in C1|apply Z.leb_gt in C1; lia]).
    set (i := Z.to_nat (lenZ ds + k)). assert (i = S (pred i)) as Ei by lia.
    assert (length (firstn i ds) = i) as Lf by (rewrite firstn_length; unfold lenZ in *; lia).
    assert (lenZ (skipn i ds) = - k) as Ls by (unfold lenZ in *; rewrite skipn_length; lia).
    exists (firstn i ds), (x2e :: skipn i ds), [].
    assert (int_part (firstn i ds)) as Ip' by (rewrite Ei; apply If).
    assert (frac_part (x2e :: skipn i ds)) as Fp.
    { right. exists (skipn i ds). repeat split; auto. intros X. rewrite X in Ls. cbn in Ls. lia. }
    assert (val (tl (x2e :: skipn i ds)) (val (firstn i ds) 0) = Z.to_N d) as Ev.
    { cbn [tl]. rewrite <- val_app, firstn_skipn. exact Vd. }
    rewrite !app_nil_r. repeat split; auto; [now left|discriminate|].
    rewrite <- (app_nil_r (x2e :: skipn i ds)). rewrite read_shape; auto; [rewrite Ev; cbn [exp_val tl fst snd]; f_equal; lia|now left|discriminate| |reflexivity|].
    + rewrite Ev. lia.
    + unfold lenZ in *. cbn [length]. lia.
  - apply andb_true_iff in C3 as [C3 C3']. apply Z.ltb_lt in C3. apply Z.leb_le in C3'.
    exists [x30], (x2e :: zeros (- (lenZ ds + k)) ++ ds), [].
    assert (int_part [x30]) as Ip' by (exists x30, []; repeat split).
    assert (frac_part (x2e :: zeros (- (lenZ ds + k)) ++ ds)) as Fp.
    { right. eexists. repeat split; [rewrite E; destruct (zeros (- (lenZ (z :: more) + k))); discriminate|]. rewrite forallb_app, zeros_digits. exact Dds. }
    assert (lenZ (zeros (- (lenZ ds + k)) ++ ds) = - k) as Ls by (unfold lenZ in *; rewrite app_length; unfold zeros; rewrite repeat_length; lia).
    assert (val (tl (x2e :: zeros (- (lenZ ds + k)) ++ ds)) (val [x30] 0) = Z.to_N d) as Ev.
    { cbn [tl]. rewrite val_app, val_zeros by lia. change (val [x30] 0) with 0%N. rewrite N.mul_0_l. exact Vd. }
    rewrite !app_nil_r. repeat split; auto; [now left|discriminate|].
    change (x30 :: x2e :: zeros (- (lenZ ds + k)) ++ ds) with ([x30] ++ (x2e :: zeros (- (lenZ ds + k)) ++ ds)).
    rewrite <- (app_nil_r (x2e :: zeros (- (lenZ ds + k)) ++ ds)). rewrite read_shape; auto; [rewrite Ev; cbn [exp_val tl fst snd]; f_equal; lia|now left|discriminate| |reflexivity|].
    + rewrite Ev. lia.
    + unfold lenZ in *. cbn [length]. lia.
  - apply Z.eqb_eq in C4. destruct (expo_shape (lenZ ds + k - 1)) as [Xp Xv].
    exists ds, [], (x65 :: expo (lenZ ds + k - 1)). repeat split; auto; [now left|discriminate|].
    change (ds ++ x65 :: expo (lenZ ds + k - 1)) with (ds ++ [] ++ x65 :: expo (lenZ ds + k - 1)).
    rewrite read_shape; auto; [|now left|discriminate| | |reflexivity].
    + cbn [tl val fold_left]. rewrite Vd, Xv. cbn [fst snd]. f_equal. change (lenZ []) with 0. lia.
    + cbn [tl val fold_left]. rewrite Vd. lia.
    + rewrite Xv. lia.
  - apply Z.eqb_neq in C4. destruct (expo_shape (lenZ ds + k - 1)) as [Xp Xv].
    assert (lenZ (skipn 1 ds) = lenZ ds - 1) as Ls by (unfold lenZ in *; rewrite skipn_length; lia).
    exists (firstn 1 ds), (x2e :: skipn 1 ds), (x65 :: expo (lenZ ds + k - 1)).
    assert (frac_part (x2e :: skipn 1 ds)) as Fp.
    { right. exists (skipn 1 ds). repeat split; auto. intros X. rewrite X in Ls. cbn in Ls. lia. }
    assert (val (tl (x2e :: skipn 1 ds)) (val (firstn 1 ds) 0) = Z.to_N d) as Ev.
    { cbn [tl]. rewrite <- val_app, firstn_skipn. exact Vd. }
    pose proof (If 0%nat) as If0. repeat split; auto; [discriminate|].
    change (firstn 1 ds ++ x2e :: skipn 1 ds ++ x65 :: expo (lenZ ds + k - 1)) with (firstn 1 ds ++ (x2e :: skipn 1 ds) ++ x65 :: expo (lenZ ds + k - 1)).
    rewrite read_shape; auto; [|discriminate| | |].
    + rewrite Ev, Xv. cbn [tl fst snd]. f_equal. lia.
    + rewrite Ev. lia.
    + rewrite Xv. lia.
    + unfold lenZ in *. cbn [length]. lia.
Qed.

(** The text of a float is read as the float if its magnitude is. *)
Lemma float_ok_of parts bits a : (bits < 2 ^ 64)%N -> a = Z.of_N (bits mod 2 ^ 63) -> 0 < a ->
  (let (d, k) := shortest a in 0 < d < 2 ^ 60 /\ -400 <= k <= 400 /\
     parts (Z.to_N (fst (spread d k))) (snd (spread d k)) = Some a) -> float_ok format64 (read_signed parts) bits.
Proof.
  intros B A P S0. destruct (shortest a) as [d k] eqn:Es. destruct S0 as (Dd & Kk & Fp).
  destruct (layout_read parts Dd Kk) as (ip & fr & ex & El & Ip & Fr & Ex & Ne & Rd). rewrite Fp in Rd.
  assert (format64 bits = (if (2 ^ 63 <=? bits)%N then [x2d] else []) ++ ip ++ fr ++ ex) as Ef.
  { unfold format64. rewrite <- A. destruct (Z.eqb_spec a 0); [lia|]. now rewrite Es, El. }
  destruct Ip as (z & more & Ei & Di & Zi). assert (int_part ip) as Ip by (exists z, more; auto).
  assert (is_digit z = true) as Dz by (rewrite Ei in Di; cbn in Di; now apply andb_true_iff in Di).
  assert (bits mod 2 ^ 63 = Z.to_N a)%N as Ma by lia.
  pose proof (N.div_mod bits (2 ^ 63) ltac:(lia)) as DM. pose proof (N.mod_lt bits (2 ^ 63) ltac:(lia)) as Ml.
  assert (bits / 2 ^ 63 < 2)%N as Dl by (apply N.div_lt_upper_bound; lia).
  split.
  - rewrite Ef. destruct (2 ^ 63 <=? bits)%N; [eexists; eexists; split; reflexivity|]. rewrite Ei. exists z, (more ++ fr ++ ex). cbn [app]. split; [reflexivity|]. rewrite Dz. apply orb_true_r.
  - intros r R. rewrite Ef, <- !app_assoc. rewrite number_shape by auto. unfold floating.
    assert (read_signed parts ((if (2 ^ 63 <=? bits)%N then [x2d] else []) ++ ip ++ fr ++ ex) = Some bits) as ->; [|reflexivity].
    destruct (N.leb_spec (2 ^ 63) bits) as [G|G].
    + change ([x2d] ++ ip ++ fr ++ ex) with (x2d :: ip ++ fr ++ ex). unfold read_signed. rewrite beq_refl, <- El, Rd. cbn [option_map]. f_equal. lia.
    + cbn [app]. unfold read_signed. rewrite Ei at 1. cbn [app]. rewrite (digit_not_minus _ Dz). rewrite <- El, Rd. cbn [option_map]. f_equal. lia.
Qed.

Lemma zero_ok bits : (bits < 2 ^ 64)%N -> (bits mod 2 ^ 63 = 0)%N -> float_ok format64 read_f64 bits.
Proof.
  intros B M. pose proof (N.div_mod bits (2 ^ 63) ltac:(lia)) as DM. assert (bits / 2 ^ 63 < 2)%N as Dl by (apply N.div_lt_upper_bound; lia).
  assert (int_part [x30]) as Ip by (exists x30, []; repeat split). assert (frac_part [x2e; x30]) as Fp by (right; exists [x30]; repeat split; discriminate).
  assert (bits = 0 \/ bits = 2 ^ 63)%N as [->| ->] by lia.
  - split; [exists x30, [x2e; x30]; split; reflexivity|]. intros r R.
    change (format64 0) with ([] ++ [x30] ++ [x2e; x30] ++ []). rewrite <- !app_assoc. rewrite (@number_shape read_f64 false [x30] [x2e; x30] [] r) by (auto; try (now left); discriminate).
    unfold floating. replace (read_f64 ([] ++ [x30] ++ [x2e; x30] ++ [])) with (Some 0%N); [reflexivity|vm_compute; reflexivity].
  - split; [exists x2d, [x30; x2e; x30]; split; reflexivity|]. intros r R.
    change (format64 (2 ^ 63)) with ([x2d] ++ [x30] ++ [x2e; x30] ++ []). rewrite <- !app_assoc. rewrite (@number_shape read_f64 true [x30] [x2e; x30] [] r) by (auto; try (now left); discriminate).
    unfold floating. replace (read_f64 ([x2d] ++ [x30] ++ [x2e; x30] ++ [])) with (Some (2 ^ 63)%N); [reflexivity|vm_compute; reflexivity].
Qed.

(** Two decimals of the same double are close. *)
Lemma same_close d k n e : 0 <= d -> 0 <= n -> 0 < e -> of_dec d k = rnd n e -> top <= rnd n e ->
  d * up k * e * (2 * top - 1) <= n * dn k * (2 * top + 1).
Proof.
  intros D N E Eq T. pose proof (up_pos k) as Up. pose proof (dn_pos k) as Dp. pose proof two_pos as Tp.
  assert (0 <= d * up k) as Du by (apply Z.mul_nonneg_nonneg; lia).
  pose proof (@rnd_error (d * up k) (dn k) Du Dp) as X. rewrite <- of_dec_eq, Eq in X. specialize (X T).
  pose proof (@rnd_error n e N E T) as Y. set (s := scaled (rnd n e)) in *.
  assert (0 <= s) as S0 by (apply scaled_nonneg; unfold top in T; lia). clearbody s.
  set (v := d * up k) in *. set (t := 2 ^ 1074) in *. set (c := 2 * top) in *. assert (1 < c) as C by reflexivity. clearbody v t c.
  assert (c * (v * t) <= (c + 1) * (s * dn k)) as X1.
  { replace ((c + 1) * (s * dn k)) with (c * (s * dn k) + s * dn k) by ring.
    assert (c * (v * t) - c * (s * dn k) <= c * Z.abs (v * t - s * dn k)) by (rewrite <- Z.mul_sub_distr_l; apply Z.mul_le_mono_nonneg_l; lia). lia. }
  assert ((c - 1) * (s * e) <= c * (n * t)) as Y1.
  { replace ((c - 1) * (s * e)) with (c * (s * e) - s * e) by ring.
    assert (c * (s * e) - c * (n * t) <= c * Z.abs (n * t - s * e)) by (rewrite <- Z.mul_sub_distr_l; apply Z.mul_le_mono_nonneg_l; lia). lia. }
  apply (Z.mul_le_mono_pos_r _ _ (c * t)); [apply Z.mul_pos_pos; lia|].
  transitivity ((c + 1) * (s * dn k) * (e * (c - 1))).
  - replace (v * e * (c - 1) * (c * t)) with (c * (v * t) * (e * (c - 1))) by ring. apply Z.mul_le_mono_nonneg_r; [apply Z.mul_nonneg_nonneg; lia|exact X1].
  - replace ((c + 1) * (s * dn k) * (e * (c - 1))) with ((c - 1) * (s * e) * (dn k * (c + 1))) by ring.
    replace (n * dn k * (c + 1) * (c * t)) with (c * (n * t) * (dn k * (c + 1))) by ring. apply Z.mul_le_mono_nonneg_r; [apply Z.mul_nonneg_nonneg; lia|exact Y1].
Qed.

Theorem short_ok bits m p : (bits < 2 ^ 64)%N -> 0 <= m <= 10 ^ 15 -> 0 <= p <= 22 -> m <= 10 ^ 15 * 10 ^ p ->
  rnd m (10 ^ p) = Z.of_N (bits mod 2 ^ 63) -> float_ok format64 read_f64 bits.
Proof.
  intros B M P L E. set (a := Z.of_N (bits mod 2 ^ 63)) in *. assert (0 < 10 ^ p) as Pp by (apply Z.pow_pos_nonneg; lia).
  destruct (Z.eq_dec m 0) as [->|M0].
  { apply zero_ok; auto. assert (rnd 0 (10 ^ p) = 0) as Z0 by (apply rnd_exact; try lia; change (scaled 0) with 0; lia). lia. }
  assert (top <= a) as Ta.
  { rewrite <- E. apply Z.le_trans with (rnd 1 (10 ^ 22)); [apply Z.leb_le; vm_compute; reflexivity|]. apply rnd_mono; try lia.
    assert (10 ^ p <= 10 ^ 22) by (apply Z.pow_le_mono_r; lia). assert (1 * 10 ^ 22 <= m * 10 ^ 22) by (apply Z.mul_le_mono_nonneg_r; lia). lia. }
  assert (a < inf) as Ai.
  { rewrite <- E. apply Z.le_lt_trans with (rnd (10 ^ 15) 1); [apply rnd_mono; lia|apply Z.ltb_lt; vm_compute; reflexivity]. }
  assert (0 < a) as Ap by (unfold top in Ta; lia).
  apply (@float_ok_of from_parts bits a B eq_refl); fold a; auto. destruct (shortest a) as [d k] eqn:Es.
  destruct (@shortest_spec a d k ltac:(lia) Es) as (D0 & Od & Mx & Kb & _).
  assert (of_dec m (- p) = a) as Om.
  { rewrite <- E. apply of_dec_ratio; try lia. unfold up, dn. rewrite (Z.max_l 0 (- p)), Z.opp_involutive, (Z.max_r 0 p) by lia. ring. }
  pose proof (Mx m (- p) ltac:(lia) Om) as Kp.
  pose proof (@same_close d k m (10 ^ p) ltac:(lia) ltac:(lia) Pp ltac:(congruence) ltac:(lia)) as Cl.
  change (2 * top - 1) with 9007199254740991 in Cl. change (2 * top + 1) with 9007199254740993 in Cl.
  unfold spread. pose proof (@decimal_length (Z.to_N d) ltac:(lia)) as Len. rewrite Z2N.id in Len by lia. set (len := lenZ (decimal (Z.to_N d))) in *.
  destruct (Z.leb_spec 0 k) as [Kn|Kn].
  - unfold up, dn in Cl. rewrite (Z.max_r 0 k), (Z.max_l 0 (- k)) in Cl by lia. rewrite Z.pow_0_r, Z.mul_1_r in Cl.
    assert (0 < 10 ^ k) as Kp0 by (apply Z.pow_pos_nonneg; lia).
    assert (d * 10 ^ k <= 10 ^ 15) as Y.
    { assert (d * 10 ^ k * 10 ^ p * 9007199254740991 <= 10 ^ 15 * 10 ^ p * 9007199254740993) as Z1 by (etransitivity; [exact Cl|apply Z.mul_le_mono_nonneg_r; lia]).
      assert (d * 10 ^ k * 9007199254740991 <= 10 ^ 15 * 9007199254740993) as Z2.
      { apply (Z.mul_le_mono_pos_r _ _ (10 ^ p)); [lia|]. set (t := 10 ^ p) in *. set (y := d * 10 ^ k) in *. clearbody t y. lia. }
      lia. }
    assert (len + k <= 16) as Lk.
    { assert (10 ^ (len - 1 + k) <= 10 ^ 15) as Z1.
      { destruct (Z_le_gt_dec 1 len) as [Ll|Ll].
        - rewrite Z.pow_add_r by lia. etransitivity; [|exact Y]. apply Z.mul_le_mono_nonneg_r; lia.
        - exfalso. destruct (Z.eq_dec len 0) as [X|X]; [rewrite X in Len; cbn in Len; lia|]. unfold len, lenZ in *. lia. }
      destruct (Z_le_gt_dec (len - 1 + k) 15); [lia|]. assert (10 ^ 16 <= 10 ^ (len - 1 + k)) by (apply Z.pow_le_mono_r; lia). lia. }
    rewrite (proj2 (Z.leb_le (len + k) 16)) by exact Lk. cbn [andb fst snd].
    assert (d * 1 <= d * 10 ^ k) by (apply Z.mul_le_mono_nonneg_l; lia).
    split; [lia|]. split; [lia|].
    assert (0 <= d * 10 ^ (k + 1)) as Y0 by (apply Z.mul_nonneg_nonneg; [lia|apply Z.pow_nonneg; lia]).
    replace (-1) with (- (1)) by reflexivity. rewrite (@parts_down (Z.to_N (d * 10 ^ (k + 1))) 1); [| |lia]; rewrite Z2N.id by exact Y0.
    + f_equal. rewrite <- Od. symmetry. change (of_dec (d * 10 ^ (k + 1)) (- (1))) with (rnd (d * 10 ^ (k + 1)) (10 ^ 1)).
      apply of_dec_ratio; try lia. unfold up, dn. rewrite (Z.max_r 0 k), (Z.max_l 0 (- k)) by lia. rewrite Z.pow_0_r, Z.pow_add_r by lia. ring.
    + exists (5 * (d * 10 ^ k)), 1. rewrite Z.pow_add_r by lia. repeat split; try lia. unfold top. lia.
  - cbn [andb fst snd]. unfold up, dn in Cl. rewrite (Z.max_l 0 k), (Z.max_r 0 (- k)) in Cl by lia. rewrite Z.pow_0_r, Z.mul_1_r in Cl.
    assert (10 ^ (- k) <= 10 ^ p) as Kq by (apply Z.pow_le_mono_r; lia).
    assert (d <= 10 ^ 15) as Y.
    { assert (d * 10 ^ p * 9007199254740991 <= m * 10 ^ p * 9007199254740993) as Z1.
      { etransitivity; [exact Cl|]. apply Z.mul_le_mono_nonneg_r; [lia|]. apply Z.mul_le_mono_nonneg_l; lia. }
      assert (d * 9007199254740991 <= m * 9007199254740993) as Z2.
      { apply (Z.mul_le_mono_pos_r _ _ (10 ^ p)); [lia|]. set (t := 10 ^ p) in *. clearbody t. lia. }
      lia. }
    split; [lia|]. split; [lia|]. replace k with (- (- k)) by lia. rewrite parts_down; rewrite ?Z2N.id by lia; [|apply exact_small; unfold top; lia|lia].
    rewrite Z.opp_involutive. now f_equal.
Qed.
