(** * What serde_json reads is close to what was written, and it reads all of it *)
From Verif Require Import Base OMap Json JsonText F64 FloatText FloatFacts FloatClose.
Open Scope Z_scope.

Set Implicit Arguments.

(** [y] (scaled, see F64.v) is [x] up to 2^-49 of it and twice the smallest
    positive double. *)
Definition close_to (x y : Z) : Prop := 2 ^ 49 * Z.abs (y - x) <= x + 2 * 2 ^ 49.

Lemma pow10_off k : 0 <= k -> 0 < scaled (pow10 k) /\ 0 < 10 ^ k /\ off (K - 1) (K + 1) 0 (scaled (pow10 k)) (10 ^ k) 1.
Proof.
  intros Kk. assert (0 < 10 ^ k) as P by (apply Z.pow_pos_nonneg; lia). split; [|split; auto].
  - pose proof (pow10_ge Kk). pose proof two_pos. lia.
  - apply off_int. exact P.
Qed.

Lemma off_close3 X Y n d : 0 <= X -> 0 <= Y -> 0 <= n -> 0 < d ->
  off ((K - 1) * (K - 1) * (K - 1)) ((K + 1) * (K + 1) * (K + 1)) 1 Y n d -> off (K - 1) (K + 1) 1 X n d -> close_to X Y.
Proof.
  intros X0 Y0 N D OY OX. set (A := (K - 1) * (K - 1) * (K - 1)) in *. set (B := (K + 1) * (K + 1) * (K + 1)) in *.
  assert (0 < A <= B) as AB by (split; [apply Z.ltb_lt|apply Z.leb_le]; vm_compute; reflexivity).
  destruct (@off_both A B 1 X Y n d AB N D OY OX) as (L & U). clear OY OX AB.
  set (a := A * (K - 1)) in *. set (b := B * (K + 1)) in *. vm_compute in a, b. unfold close_to. clear A B. subst a b. change (2 ^ 49) with 562949953421312. lia.
Qed.
Lemma off_close5 X Y n d : 0 <= X -> 0 <= Y -> 0 <= n -> 0 < d ->
  off ((K - 1) * (K - 1) * (K - 1) * (K - 1) * (K - 1)) ((K + 1) * (K + 1) * (K + 1) * (K + 1) * (K + 1)) 2 Y n d -> off (K - 1) (K + 1) 1 X n d -> close_to X Y.
Proof.
  intros X0 Y0 N D OY OX. set (A := (K - 1) * (K - 1) * (K - 1) * (K - 1) * (K - 1)) in *. set (B := (K + 1) * (K + 1) * (K + 1) * (K + 1) * (K + 1)) in *.
  assert (0 < A <= B) as AB by (split; [apply Z.ltb_lt|apply Z.leb_le]; vm_compute; reflexivity).
  destruct (@off_both A B 2 X Y n d AB N D OY OX) as (L & U). clear OY OX AB.
  set (a := A * (K - 1)) in *. set (b := B * (K + 1)) in *. vm_compute in a, b. unfold close_to. clear A B. subst a b. change (2 ^ 49) with 562949953421312. lia.
Qed.

Lemma of_dec_off sig e : 0 <= sig -> off (K - 1) (K + 1) 1 (scaled (of_dec sig e)) (sig * up e) (dn e).
Proof.
  intros Sg. rewrite of_dec_eq. apply off_rnd; [apply Z.mul_nonneg_nonneg; [auto|pose proof (up_pos e); lia]|apply dn_pos].
Qed.

Lemma u64_pos s : 0 < s -> 0 < of_u64 s.
Proof.
  intros P. apply Z.lt_le_trans with (rnd 1 1); [apply Z.ltb_lt; vm_compute; reflexivity|]. unfold of_u64. apply rnd_mono; lia.
Qed.

Definition off3 : Z -> Z -> Z -> Prop := off ((K - 1) * (K - 1) * (K - 1)) ((K + 1) * (K + 1) * (K + 1)) 1.
Definition off5 : Z -> Z -> Z -> Prop := off ((K - 1) * (K - 1) * (K - 1) * (K - 1) * (K - 1)) ((K + 1) * (K + 1) * (K + 1) * (K + 1) * (K + 1)) 2.
Theorem parts_off sig e y : (0 < sig)%N -> -616 <= e <= 308 -> from_parts sig e = Some y ->
  0 <= y /\ (off3 (scaled y) (Z.of_N sig * up e) (dn e) \/ off5 (scaled y) (Z.of_N sig * up e) (dn e)).
Proof.
  intros Sg Er. unfold from_parts. set (s := Z.of_N sig). assert (0 < s) as Sp by lia. clearbody s. clear Sg.
  pose proof (up_pos e) as Up. pose proof (dn_pos e) as Dp. assert (0 <= s * up e) as N0 by (apply Z.mul_nonneg_nonneg; lia).
  pose proof (u64_pos Sp) as Fp. pose proof (scaled_pos Fp) as F0. pose proof (off_int Sp) as Of. change (rnd s 1) with (of_u64 s) in Of.
  set (f := of_u64 s) in *. clearbody f.
  destruct (Z_lt_le_dec e (- 308)) as [Lo|Hi].
  - assert (exists n, N.iter (Z.to_N (Z.abs e / 308 + 1)) round_parts (inl (f, e)) = N.iter n round_parts (round_parts (round_parts (inl (f, e))))) as (m & Em).
    { assert (1 <= Z.abs e / 308) by (apply Z.div_le_lower_bound; lia). exists (Z.to_N (Z.abs e / 308 - 1)).
      replace (Z.to_N (Z.abs e / 308 + 1)) with (N.succ (N.succ (Z.to_N (Z.abs e / 308 - 1)))) by lia. now rewrite !N.iter_succ_r. }
    rewrite Em. clear Em. assert (forall r, N.iter m round_parts (inr r) = inr r) as Stay.
    { intros r. apply N.iter_invariant; [intros x ->; reflexivity|reflexivity]. }
    unfold round_parts at 3. destruct (Z.leb_spec (Z.abs e) 308); [lia|]. destruct (Z.eqb_spec f 0); [lia|]. destruct (Z.leb_spec 0 e); [lia|].
    unfold round_parts at 2. destruct (Z.leb_spec (Z.abs (e + 308)) 308); [|lia]. destruct (Z.leb_spec 0 (e + 308)); [lia|].
    rewrite Stay. intros E. assert (y = fdiv (fdiv f (pow10 308)) (pow10 (- (e + 308)))) as -> by congruence. clear E.
    assert (0 <= 308) as E308 by lia. assert (0 <= - (e + 308)) as Ej by lia.
    assert (10 ^ 1 <= 10 ^ (- (e + 308))) as M10 by (apply Z.pow_le_mono_r; lia). change (10 ^ 1) with 10 in M10.
    set (j := - (e + 308)) in *. assert (dn e = 10 ^ 308 * 10 ^ j) as De.
    { unfold dn. rewrite <- Z.pow_add_r by lia. f_equal. lia. }
    assert (up e = 1) as Ue by (unfold up; rewrite Z.max_l by lia; reflexivity). rewrite Ue, Z.mul_1_r in *. rewrite De in *. clear Ue De.
    pose proof (pow10_pos E308) as Pp. destruct (pow10_off E308) as (P1 & M1 & O1). set (p308 := pow10 308) in *. set (m308 := 10 ^ 308) in *. clearbody p308 m308.
    destruct (pow10_off Ej) as (P2 & M2 & O2). clearbody j.
    assert (0 < K - 1 <= K + 1) as KK by (pose proof K_big; lia).
    pose proof (@off_div (K - 1) (K + 1) 0 (scaled f) s 1 (scaled p308) m308 KK ltac:(lia) ltac:(lia) ltac:(lia) ltac:(lia) P1 M1 (or_introl eq_refl) Of O1) as D1.
    rewrite !Z.mul_1_l in D1. change (0 + 1) with 1 in D1. rewrite <- fdiv_eq in D1 by lia. set (g := fdiv f p308) in *.
    assert (0 <= g) as G0 by (unfold g; rewrite fdiv_eq by lia; apply rnd_nonneg; lia). pose proof (scaled_nonneg G0) as G1. clearbody g.
    pose proof (@off_div ((K - 1) * (K - 1) * (K - 1)) ((K + 1) * (K + 1) * (K + 1)) 1 (scaled g) s m308 (scaled (pow10 j)) (10 ^ j)
      ltac:(split; [apply Z.ltb_lt|apply Z.leb_le]; vm_compute; reflexivity) ltac:(lia) G1 ltac:(lia) M1 P2 M2 (or_intror M10) D1 O2) as D2.
    change (1 + 1) with 2 in D2. pose proof (pow10_pos Ej) as Pj. rewrite <- fdiv_eq in D2 by assumption. assert (0 <= fdiv g (pow10 j)) as Y0 by (rewrite fdiv_eq by assumption; apply rnd_nonneg; lia). split; auto.
  - assert (exists n, N.iter (Z.to_N (Z.abs e / 308 + 1)) round_parts (inl (f, e)) = N.iter n round_parts (round_parts (inl (f, e)))) as (m & Em).
    { assert (0 <= Z.abs e / 308) by (apply Z.div_pos; lia). exists (Z.to_N (Z.abs e / 308)).
      replace (Z.to_N (Z.abs e / 308 + 1)) with (N.succ (Z.to_N (Z.abs e / 308))) by lia. now rewrite N.iter_succ_r. }
    rewrite Em. clear Em. assert (forall r, N.iter m round_parts (inr r) = inr r) as Stay.
    { intros r. apply N.iter_invariant; [intros x ->; reflexivity|reflexivity]. }
    unfold round_parts at 2. destruct (Z.leb_spec (Z.abs e) 308); [|lia]. destruct (Z.leb_spec 0 e) as [P|P].
    + cbv zeta. rewrite Stay. destruct (Z.ltb_spec (fmul f (pow10 e)) inf); [|discriminate]. intros E. assert (y = fmul f (pow10 e)) as -> by congruence. clear E.
      destruct (pow10_off P) as (P1 & M1 & O1). pose proof (@off_mul (scaled f) s _ _ ltac:(lia) ltac:(lia) P1 M1 Of O1) as D1. pose proof (pow10_pos P) as Pe. rewrite <- fmul_eq in D1 by lia.
      assert (up e = 10 ^ e) as Ue by (unfold up; f_equal; lia). assert (dn e = 1) as De by (unfold dn; rewrite Z.max_l by lia; reflexivity). rewrite Ue, De in *.
      assert (0 <= fmul f (pow10 e)) as Y0 by (rewrite fmul_eq by lia; apply rnd_nonneg; [apply Z.mul_nonneg_nonneg; lia|pose proof two_pos; apply Z.mul_pos_pos; lia]). split; auto.
    + rewrite Stay. intros E. assert (y = fdiv f (pow10 (- e))) as -> by congruence. clear E.
      destruct (@pow10_off (- e) ltac:(lia)) as (P1 & M1 & O1).
      assert (0 < K - 1 <= K + 1) as KK by (pose proof K_big; lia).
      pose proof (@off_div (K - 1) (K + 1) 0 (scaled f) s 1 (scaled (pow10 (- e))) (10 ^ (- e)) KK ltac:(lia) ltac:(lia) ltac:(lia) ltac:(lia) P1 M1 (or_introl eq_refl) Of O1) as D1.
      rewrite !Z.mul_1_l in D1. change (0 + 1) with 1 in D1. pose proof (@pow10_pos (- e) ltac:(lia)) as Pe. rewrite <- fdiv_eq in D1 by lia.
      assert (up e = 1) as Ue by (unfold up; rewrite Z.max_l by lia; reflexivity). assert (dn e = 10 ^ (- e)) as De by (unfold dn; f_equal; lia). rewrite Ue, De, ?Z.mul_1_r in *.
      assert (0 <= fdiv f (pow10 (- e))) as Y0 by (rewrite fdiv_eq by lia; apply rnd_nonneg; lia). split; auto.
Qed.
Theorem parts_close sig e y : (0 < sig)%N -> -400 <= e <= 308 -> from_parts sig e = Some y ->
  0 <= y /\ close_to (scaled (of_dec (Z.of_N sig) e)) (scaled y).
Proof.
  intros Sg Er E. destruct (@parts_off sig e y Sg ltac:(lia) E) as (Y0 & O). split; [exact Y0|].
  pose proof (@of_dec_off (Z.of_N sig) e ltac:(lia)) as OX. pose proof (@scaled_nonneg _ (@of_dec_nonneg (Z.of_N sig) e ltac:(lia))) as X0.
  pose proof (up_pos e). pose proof (dn_pos e). assert (0 <= Z.of_N sig * up e) as N0 by (apply Z.mul_nonneg_nonneg; lia).
  pose proof (scaled_nonneg Y0) as Y1. destruct O as [O|O]; [exact (@off_close3 _ _ _ _ X0 Y1 N0 H0 O OX)|exact (@off_close5 _ _ _ _ X0 Y1 N0 H0 O OX)].
Qed.

(** ** Nothing that was written is refused *)

Lemma parts_neg sig e : e < 0 -> -400 <= e -> (0 < sig)%N -> exists y, from_parts sig e = Some y.
Proof.
  intros En Er Sg. unfold from_parts. set (f := of_u64 (Z.of_N sig)). assert (0 < f) as Fp by (apply u64_pos; lia). clearbody f.
  destruct (Z_lt_le_dec e (- 308)) as [Lo|Hi].
  - assert (Z.abs e / 308 = 1) as Q by (symmetry; apply Z.div_unique with (Z.abs e - 308); lia). rewrite Q. change (Z.to_N (1 + 1)) with 2%N. cbn [N.iter Pos.iter].
    unfold round_parts at 2. destruct (Z.leb_spec (Z.abs e) 308); [lia|]. destruct (Z.eqb_spec f 0); [lia|]. destruct (Z.leb_spec 0 e); [lia|].
    unfold round_parts. destruct (Z.leb_spec (Z.abs (e + 308)) 308); [|lia]. destruct (Z.leb_spec 0 (e + 308)); [lia|]. eauto.
  - assert (0 <= Z.abs e / 308) by (apply Z.div_pos; lia). set (m := Z.to_N (Z.abs e / 308)).
    replace (Z.to_N (Z.abs e / 308 + 1)) with (N.succ m) by lia. rewrite N.iter_succ_r.
    assert (forall r, N.iter m round_parts (inr r) = inr r) as Stay by (intros r; apply N.iter_invariant; [intros x ->; reflexivity|reflexivity]).
    unfold round_parts at 2. destruct (Z.leb_spec (Z.abs e) 308); [|lia]. destruct (Z.leb_spec 0 e); [lia|]. rewrite Stay. eauto.
Qed.
Lemma parts_pos sig e : 0 <= e <= 308 -> fmul (of_u64 (Z.of_N sig)) (pow10 e) < inf -> from_parts sig e = Some (fmul (of_u64 (Z.of_N sig)) (pow10 e)).
Proof.
  intros Er L. unfold from_parts. set (f := of_u64 (Z.of_N sig)) in *. clearbody f.
  assert (0 <= Z.abs e / 308) by (apply Z.div_pos; lia). set (m := Z.to_N (Z.abs e / 308)).
  replace (Z.to_N (Z.abs e / 308 + 1)) with (N.succ m) by lia. rewrite N.iter_succ_r.
  assert (forall r, N.iter m round_parts (inr r) = inr r) as Stay by (intros r; apply N.iter_invariant; [intros x ->; reflexivity|reflexivity]).
  unfold round_parts at 2. destruct (Z.leb_spec (Z.abs e) 308); [|lia]. destruct (Z.leb_spec 0 e); [|lia]. cbv zeta. rewrite Stay.
  destruct (Z.ltb_spec (fmul f (pow10 e)) inf); [reflexivity|lia].
Qed.
Lemma fmul_mono f f' p p' : 0 <= f <= f' -> 0 <= p <= p' -> fmul f p <= fmul f' p'.
Proof.
  intros F P. rewrite !fmul_eq by lia. pose proof two_pos. assert (0 < 2 ^ 1074 * 2 ^ 1074) as TT by (apply Z.mul_pos_pos; lia).
  pose proof (@scaled_nonneg f ltac:(lia)). pose proof (@scaled_nonneg p ltac:(lia)). pose proof (@scaled_le f f' ltac:(lia) ltac:(lia)). pose proof (@scaled_le p p' ltac:(lia) ltac:(lia)).
  assert (scaled f * scaled p <= scaled f' * scaled p') by (apply Z.mul_le_mono_nonneg; lia).
  apply rnd_mono; auto; try (apply Z.mul_nonneg_nonneg; lia). apply Z.mul_le_mono_nonneg_r; lia.
Qed.
Lemma pow10_mono k k' : 0 <= k <= k' -> 0 <= pow10 k <= pow10 k'.
Proof.
  intros Kk. unfold pow10. assert (10 ^ k <= 10 ^ k') by (apply Z.pow_le_mono_r; lia). assert (0 <= 10 ^ k) by (apply Z.pow_nonneg; lia).
  split; [apply rnd_nonneg; lia|apply rnd_mono; lia].
Qed.

(** The largest significand with exponent [e] that is not infinite. *)
Definition most (e : Z) : Z := if e =? 292 then 17976931348623157 else (2 ^ 1024 - 2 ^ 970 - 1) / 10 ^ e.
Definition checked (e : Z) : bool :=
  (0 <=? most e) && (fmul (of_u64 (most e)) (pow10 e) <? inf) && (inf <=? of_dec (if e =? 292 then 17976931348623159 else most e + 1) e).
Lemma all_checked : forallb checked (map (fun n => 292 + Z.of_nat n) (seq 0 17)) = true.
Proof. vm_cast_no_check (eq_refl true). Qed.
Lemma most_all e : 292 <= e <= 308 -> checked e = true.
Proof.
  intros E. pose proof all_checked as A. rewrite forallb_forall in A. apply A. apply in_map_iff. exists (Z.to_nat (e - 292)). split; [lia|]. apply in_seq. lia.
Qed.
Lemma largest : shortest (inf - 1) = (17976931348623157, 292).
Proof. vm_cast_no_check (eq_refl (17976931348623157, 292)). Qed.
Lemma largest_other : of_dec 17976931348623158 292 = inf - 1.
Proof. vm_compute. reflexivity. Qed.

Lemma below_292 : fmul (of_u64 (10 ^ 17)) (pow10 291) < inf.
Proof. apply Z.ltb_lt. vm_compute. reflexivity. Qed.
Lemma above_308 : inf <= of_dec 1 309.
Proof. apply Z.leb_le. vm_compute. reflexivity. Qed.

Lemma positive_total b d k : 0 < b < inf -> shortest b = (d, k) -> 0 <= k -> k <= 308 /\ fmul (of_u64 d) (pow10 k) < inf.
Proof.
  intros B E K0. destruct (shortest_spec B E) as (D0 & Od & _). pose proof (shortest_17 B E) as D17.
  assert (k <= 308) as K8.
  { destruct (Z_le_gt_dec k 308); auto. exfalso. assert (of_dec 1 309 <= of_dec d k) as L; [|pose proof above_308; lia].
    rewrite !of_dec_eq. unfold dn. rewrite !Z.max_l by lia. rewrite Z.pow_0_r. unfold up. rewrite !Z.max_r by lia.
    assert (10 ^ 309 <= 10 ^ k) as P by (apply Z.pow_le_mono_r; lia). assert (0 <= 10 ^ 309) as P0 by (apply Z.pow_nonneg; lia). clear - P P0 D0. set (p := 10 ^ 309) in *. set (q := 10 ^ k) in *. clearbody p q.
    assert (1 * q <= d * q) by (apply Z.mul_le_mono_nonneg_r; lia). apply rnd_mono; lia. }
  split; auto. destruct (Z_le_gt_dec k 291) as [K1|K1].
  - eapply Z.le_lt_trans; [|exact below_292]. apply fmul_mono; [|apply pow10_mono; lia]. split; [unfold of_u64; apply rnd_nonneg; lia|unfold of_u64; apply rnd_mono; lia].
  - assert (d <= most k) as Dm.
    { pose proof (@most_all k ltac:(lia)) as C. apply andb_true_iff in C as [C C3]. apply andb_true_iff in C as [C1 C2]. apply Z.leb_le in C1. apply Z.leb_le in C3. clear C2.
      destruct (Z_le_gt_dec d (most k)) as [|G]; auto. exfalso. destruct (Z.eqb_spec k 292) as [->|Ne].
      - change (most 292) with 17976931348623157 in *. assert (d = 17976931348623158 \/ 17976931348623159 <= d) as [->|G9] by lia.
        + rewrite largest_other in Od. rewrite <- Od, largest in E. discriminate.
        + pose proof (@of_dec_mono 17976931348623159 d 292 ltac:(lia)) as M. clear - M C3 Od B. set (z := of_dec 17976931348623159 292) in *. clearbody z. lia.
      - pose proof (@of_dec_mono (most k + 1) d k ltac:(lia)) as M. lia. }
    pose proof (@most_all k ltac:(lia)) as C. apply andb_true_iff in C as [C _]. apply andb_true_iff in C as [C1 C2]. apply Z.ltb_lt in C2.
    eapply Z.le_lt_trans; [|exact C2]. apply fmul_mono; [|apply pow10_mono; lia]. split; [unfold of_u64; apply rnd_nonneg; lia|unfold of_u64; apply rnd_mono; lia].
Qed.

(** The magnitude [b] is written and read as a finite magnitude close to it. *)
Theorem magnitude b d k : 0 < b < inf -> shortest b = (d, k) ->
  0 < d < 2 ^ 60 /\ -400 <= k <= 400 /\
  exists y, from_parts (Z.to_N (fst (spread d k))) (snd (spread d k)) = Some y /\ 0 <= y < inf /\ close_to (scaled b) (scaled y).
Proof.
  intros B E. destruct (shortest_spec B E) as (D0 & Od & _ & Kb & _). pose proof (shortest_17 B E) as D17. split; [lia|]. split; [lia|].
  pose proof (@spread_value d k ltac:(lia)) as Sv. rewrite Od in Sv. pose proof (@spread_nonneg d k ltac:(lia)) as Sn.
  assert (0 < fst (spread d k)) as Sp.
  { destruct (Z.eq_dec (fst (spread d k)) 0) as [Z0|]; [|lia]. rewrite Z0, of_dec_0 in Sv. lia. }
  assert (fst (spread d k) < 2 ^ 64 /\ -400 <= snd (spread d k) <= 308 /\ exists y, from_parts (Z.to_N (fst (spread d k))) (snd (spread d k)) = Some y) as (S64 & Er & y & Y).
  { unfold spread in *. destruct ((0 <=? k) && (lenZ (decimal (Z.to_N d)) + k <=? 16)) eqn:C; cbn [fst snd] in *.
    - apply andb_true_iff in C as [C1 C2]. apply Z.leb_le in C1. apply Z.leb_le in C2. split; [|split; [lia|apply parts_neg; lia]].
      pose proof (@decimal_length (Z.to_N d) ltac:(lia)) as Len. rewrite Z2N.id in Len by lia. set (l := lenZ (decimal (Z.to_N d))) in *.
      assert (0 <= l) by (unfold l, lenZ; lia). clearbody l.
      apply Z.lt_trans with (10 ^ 17 + 1); [|reflexivity]. enough (d * 10 ^ (k + 1) <= 10 ^ 17) by lia.
      transitivity (10 ^ l * 10 ^ (k + 1)); [apply Z.mul_le_mono_nonneg_r; [apply Z.pow_nonneg; lia|lia]|]. rewrite <- Z.pow_add_r by lia. apply Z.pow_le_mono_r; lia.
    - split; [lia|]. destruct (Z_lt_le_dec k 0) as [Kn|Kp]; [split; [lia|apply parts_neg; lia]|].
      destruct (positive_total B E Kp) as [K8 F]. split; [lia|]. eexists. apply parts_pos; [lia|]. rewrite Z2N.id by lia. exact F. }
  exists y. split; [exact Y|]. split; [eapply parts_fine; [|exact Y]; lia|].
  destruct (@parts_close (Z.to_N (fst (spread d k))) (snd (spread d k)) y ltac:(lia) Er Y) as [_ Cl]. rewrite Z2N.id in Cl by lia. now rewrite Sv in Cl.
Qed.

(** ** Large decimals of few digits *)
Theorem large_ok bits m j : (bits < 2 ^ 64)%N -> 0 <= m <= 10 ^ 15 -> 0 <= j -> 10 ^ 16 <= m * 10 ^ j <= 10 ^ 22 ->
  rnd (m * 10 ^ j) 1 = Z.of_N (bits mod 2 ^ 63) -> float_ok format64 read_f64 bits.
Proof.
  intros B M J V E. set (a := Z.of_N (bits mod 2 ^ 63)) in *. set (v := m * 10 ^ j) in *.
  assert (top <= a) as Ta.
  { rewrite <- E. apply Z.le_trans with (rnd 1 1); [apply Z.leb_le; vm_compute; reflexivity|]. apply rnd_mono; lia. }
  assert (a < inf) as Ai.
  { rewrite <- E. apply Z.le_lt_trans with (rnd (10 ^ 22) 1); [apply rnd_mono; lia|apply Z.ltb_lt; vm_compute; reflexivity]. }
  assert (0 < a) as Ap by (unfold top in Ta; lia).
  apply (@float_ok_of from_parts bits a B eq_refl); fold a; auto. destruct (shortest a) as [d k] eqn:Es.
  destruct (@shortest_spec a d k ltac:(lia) Es) as (D0 & Od & Mx & Kb & _). pose proof (@shortest_17 a d k ltac:(lia) Es) as D17.
  assert (of_dec m j = a) as Om.
  { rewrite <- E. apply of_dec_ratio; try lia. unfold up, dn. rewrite (Z.max_l 0 (- j)), (Z.max_r 0 j) by lia. unfold v. ring. }
  pose proof (Mx m j ltac:(lia) Om) as Kj.
  assert (of_dec d k = rnd v 1) as Ev by congruence. assert (top <= rnd v 1) as Tv by (rewrite E; exact Ta).
  pose proof (@same_close d k v 1 ltac:(lia) ltac:(lia) ltac:(lia) Ev Tv) as Cl.
  change (2 * top - 1) with 9007199254740991 in Cl. change (2 * top + 1) with 9007199254740993 in Cl.
  unfold up, dn in Cl. rewrite (Z.max_r 0 k), (Z.max_l 0 (- k)) in Cl by lia. rewrite Z.pow_0_r, !Z.mul_1_r in Cl.
  assert (0 < 10 ^ j) as Jp by (apply Z.pow_pos_nonneg; lia). assert (10 ^ j <= 10 ^ k) as Jk by (apply Z.pow_le_mono_r; lia).
  assert (d <= 10 ^ 15) as Dm.
  { assert (d * 10 ^ j * 9007199254740991 <= m * 10 ^ j * 9007199254740993) as Z1.
    { etransitivity; [|exact Cl]. apply Z.mul_le_mono_nonneg_r; [lia|]. apply Z.mul_le_mono_nonneg_l; lia. }
    assert (d * 9007199254740991 <= m * 9007199254740993) as Z2.
    { apply (Z.mul_le_mono_pos_r _ _ (10 ^ j)); [lia|]. set (t := 10 ^ j) in *. clearbody t v. lia. }
    lia. }
  assert (k <= 22) as K22.
  { destruct (Z_le_gt_dec k 22); auto. exfalso. assert (10 ^ 23 <= 10 ^ k) as P by (apply Z.pow_le_mono_r; lia).
    assert (1 * 10 ^ k <= d * 10 ^ k) as P1 by (apply Z.mul_le_mono_nonneg_r; lia). set (t := d * 10 ^ k) in *. set (s := 10 ^ k) in *. clearbody t s v. lia. }
  assert (10 ^ 16 <= d * 10 ^ k) as Big.
  { destruct (Z_le_gt_dec (10 ^ 16) (d * 10 ^ k)) as [|L]; auto. exfalso.
    assert (a = rnd (10 ^ 16) 1) as A16.
    { apply Z.le_antisymm.
      - rewrite <- Od. rewrite of_dec_eq. unfold dn, up. rewrite (Z.max_r 0 k), (Z.max_l 0 (- k)) by lia. rewrite Z.pow_0_r.
        apply rnd_mono; lia.
      - rewrite <- E. apply rnd_mono; lia. }
    assert (of_dec 1 16 = a) as O16 by (rewrite A16; reflexivity). pose proof (Mx 1 16 Z.le_0_1 O16) as K16. clear A16 O16.
    assert (10 ^ 16 <= 10 ^ k) as P by (apply Z.pow_le_mono_r; lia). assert (1 * 10 ^ k <= d * 10 ^ k) as P1 by (apply Z.mul_le_mono_nonneg_r; lia). lia. }
  split; [lia|]. split; [lia|].
  assert (spread d k = (d, k)) as Sp.
  { unfold spread. pose proof (@decimal_length (Z.to_N d) ltac:(lia)) as Len. rewrite Z2N.id in Len by lia. set (len := lenZ (decimal (Z.to_N d))) in *.
    destruct (Z.leb_spec 0 k); [|lia]. destruct (Z.leb_spec (len + k) 16) as [L|L]; [|reflexivity]. exfalso.
    assert (d * 10 ^ k < 10 ^ 16); [|lia]. apply Z.lt_le_trans with (10 ^ len * 10 ^ k); [apply Z.mul_lt_mono_pos_r; lia|].
    assert (0 <= len) by (unfold len, lenZ; lia). rewrite <- Z.pow_add_r by lia. apply Z.pow_le_mono_r; lia. }
  rewrite Sp. cbn [fst snd]. rewrite parts_up; rewrite ?Z2N.id by lia; [now rewrite Od|apply exact_small; unfold top; lia|lia|now rewrite Od].
Qed.
