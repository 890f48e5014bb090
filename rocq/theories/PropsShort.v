(** * C57: the text of a float is the shortest there is

    FloatText.v models ryu's search for the digits of a float.  Here: the text
    written for a float is a decimal that a reader that rounds correctly reads as
    the float; no decimal with fewer digits is; and of those with the same last
    place none is nearer. *)
From Verif Require Import Base OMap Json Types JsonText F64 FloatText FloatFacts FloatClose FloatAny FloatValues.

Set Implicit Arguments.
Local Open Scope list_scope.
Local Open Scope Z_scope.

Lemma layout_shape d k : 0 < d < 2 ^ 60 -> -400 <= k <= 400 ->
  exists ip fr ex, layout d k = ip ++ fr ++ ex /\ int_part ip /\ frac_part fr /\ exp_part ex /\
    Z.of_N (val (tl fr) (val ip 0)) = fst (spread d k) /\ exp_val ex - lenZ (tl fr) = snd (spread d k).
Proof.
  intros Dd Kk. unfold layout, spread.
  pose proof (@decimal_length (Z.to_N d) ltac:(lia)) as Len. rewrite Z2N.id in Len by lia.
  destruct (decimal_spec format64 read_f64 (Z.to_N d)) as (z & more & E & D & V & Z0). set (ds := decimal (Z.to_N d)) in *.
  assert (int_part ds) as Ip.
  { exists z, more. rewrite E. repeat split; auto. intros B. now destruct (Z0 B). }
  assert (beq z x30 = false) as Zz by (destruct (beq z x30); auto; destruct (Z0 eq_refl); lia).
  assert (val ds 0 = Z.to_N d) as Vd by (rewrite E; exact V).
  assert (forallb is_digit ds = true) as Dds by (rewrite E; exact D).
  assert (1 <= lenZ ds) as L1 by (rewrite E; unfold lenZ; cbn [length]; lia).
  assert (lenZ ds <= 20) as L20.
  { assert (10 ^ (lenZ ds - 1) < 10 ^ 19) as X by (eapply Z.le_lt_trans; [apply Len|]; apply Z.lt_trans with (2 ^ 60); [lia|reflexivity]).
    apply Z.pow_lt_mono_r_iff in X; lia. }
  change (Z.of_nat (length ds)) with (lenZ ds).
  assert (forall i, int_part (firstn (S i) ds)) as If.
  { intros i. exists z, (firstn i more). rewrite E. cbn [firstn]. repeat split.
    - change (z :: firstn i more) with (firstn (S i) (z :: more)). rewrite <- E. apply forallb_forall. intros x Hx. rewrite forallb_forall in Dds. apply Dds.
      rewrite <- (firstn_skipn (S i) ds). apply in_or_app. auto.
    - intros B. congruence. }
  assert (forall i, forallb is_digit (skipn i ds) = true) as Is.
  { intros i. apply forallb_forall. intros x Hx. rewrite forallb_forall in Dds. apply Dds. rewrite <- (firstn_skipn i ds). apply in_or_app. auto. }
  clearbody ds.
  destruct ((0 <=? k) && (lenZ ds + k <=? 16)) eqn:C1; [|destruct ((0 <? lenZ ds + k) && (lenZ ds + k <=? 16)) eqn:C2;
    [|destruct ((-5 <? lenZ ds + k) && (lenZ ds + k <=? 0)) eqn:C3; [|destruct (lenZ ds =? 1) eqn:C4]]].
  - apply andb_true_iff in C1 as [C1 C1']. apply Z.leb_le in C1. apply Z.leb_le in C1'.
    exists (ds ++ zeros k), [x2e; x30], []. rewrite app_nil_r.
    assert (int_part (ds ++ zeros k)) as Ip'.
    { exists z, (more ++ zeros k). rewrite E. repeat split; [|intros B; congruence]. change ((z :: more) ++ zeros k) with ((z :: more) ++ zeros k).
      rewrite forallb_app, D, zeros_digits. reflexivity. }
    assert (frac_part [x2e; x30]) as Fp by (right; exists [x30]; repeat split; discriminate).
    assert (val (tl [x2e; x30]) (val (ds ++ zeros k) 0) = Z.to_N (d * 10 ^ (k + 1))) as Ev.
    { rewrite val_app, val_zeros, Vd by lia. cbn [tl val fold_left]. change (bN x30 - 48)%N with 0%N. rewrite Z.pow_add_r by lia.
      apply N2Z.inj. rewrite Z2N.id by (apply Z.mul_nonneg_nonneg; [lia|apply Z.mul_nonneg_nonneg; [apply Z.pow_nonneg|]; lia]).
      rewrite N2Z.inj_add, !N2Z.inj_mul, N2Z.inj_pow, !Z2N.id by lia. change (Z.of_N 10) with 10. change (Z.of_N 0) with 0. ring. }
    repeat split; auto; [now rewrite <- app_assoc|now left|].
    rewrite Ev. cbn [fst]. apply Z2N.id. apply Z.mul_nonneg_nonneg; [lia|apply Z.pow_nonneg; lia].
  - apply andb_true_iff in C2 as [C2 C2']. apply Z.ltb_lt in C2. apply Z.leb_le in C2'.
    assert (k < 0) as Kn by (apply andb_false_iff in C1 as [C1|C1]; [now apply Z.leb_gt in C1|apply Z.leb_gt in C1; lia]).
    set (i := Z.to_nat (lenZ ds + k)). assert (i = S (pred i)) as Ei by lia.
    assert (length (firstn i ds) = i) as Lf by (rewrite firstn_length; unfold lenZ in *; lia).
    assert (lenZ (skipn i ds) = - k) as Ls by (unfold lenZ in *; rewrite skipn_length; lia).
    exists (firstn i ds), (x2e :: skipn i ds), [].
    assert (int_part (firstn i ds)) as Ip' by (rewrite Ei; apply If).
    assert (frac_part (x2e :: skipn i ds)) as Fp.
    { right. exists (skipn i ds). repeat split; auto. intros X. rewrite X in Ls. cbn in Ls. lia. }
    assert (val (tl (x2e :: skipn i ds)) (val (firstn i ds) 0) = Z.to_N d) as Ev.
    { cbn [tl]. rewrite <- val_app, firstn_skipn. exact Vd. }
    rewrite !app_nil_r. repeat split; auto; [now left| |].
    + rewrite Ev. cbn [fst]. apply Z2N.id. lia.
    + cbn [exp_val tl snd]. lia.
  - apply andb_true_iff in C3 as [C3 C3']. apply Z.ltb_lt in C3. apply Z.leb_le in C3'.
    exists [x30], (x2e :: zeros (- (lenZ ds + k)) ++ ds), [].
    assert (int_part [x30]) as Ip' by (exists x30, []; repeat split).
    assert (frac_part (x2e :: zeros (- (lenZ ds + k)) ++ ds)) as Fp.
    { right. eexists. repeat split; [rewrite E; destruct (zeros (- (lenZ (z :: more) + k))); discriminate|]. rewrite forallb_app, zeros_digits. exact Dds. }
    assert (lenZ (zeros (- (lenZ ds + k)) ++ ds) = - k) as Ls by (unfold lenZ in *; rewrite app_length; unfold zeros; rewrite repeat_length; lia).
    assert (val (tl (x2e :: zeros (- (lenZ ds + k)) ++ ds)) (val [x30] 0) = Z.to_N d) as Ev.
    { cbn [tl]. rewrite val_app, val_zeros by lia. change (val [x30] 0) with 0%N. rewrite N.mul_0_l. exact Vd. }
    rewrite !app_nil_r. repeat split; auto; [now left| |].
    + rewrite Ev. cbn [fst]. apply Z2N.id. lia.
    + cbn [exp_val tl snd]. lia.
  - apply Z.eqb_eq in C4. destruct (expo_shape (lenZ ds + k - 1)) as [Xp Xv].
    exists ds, [], (x65 :: expo (lenZ ds + k - 1)). repeat split; auto; [now left| |].
    + cbn [tl val fold_left fst]. rewrite Vd. apply Z2N.id. lia.
    + rewrite Xv. change (lenZ (tl [])) with 0. cbn [snd]. lia.
  - apply Z.eqb_neq in C4. destruct (expo_shape (lenZ ds + k - 1)) as [Xp Xv].
    assert (lenZ (skipn 1 ds) = lenZ ds - 1) as Ls by (unfold lenZ in *; rewrite skipn_length; lia).
    exists (firstn 1 ds), (x2e :: skipn 1 ds), (x65 :: expo (lenZ ds + k - 1)).
    assert (frac_part (x2e :: skipn 1 ds)) as Fp.
    { right. exists (skipn 1 ds). repeat split; auto. intros X. rewrite X in Ls. cbn in Ls. lia. }
    assert (val (tl (x2e :: skipn 1 ds)) (val (firstn 1 ds) 0) = Z.to_N d) as Ev.
    { cbn [tl]. rewrite <- val_app, firstn_skipn. exact Vd. }
    pose proof (If 0%nat) as If0. repeat split; auto.
    + rewrite Ev. cbn [fst]. apply Z2N.id. lia.
    + rewrite Xv. cbn [tl snd]. lia.
Qed.

(** ** The fewest digits *)
Lemma fewest b d k p m e : 0 < b < inf -> shortest b = (d, k) -> 0 <= m < 10 ^ p -> of_dec m e = b -> d < 10 ^ p.
Proof.
  intros B Es M Om. destruct (shortest_spec B Es) as (D0 & Od & Mx & _ & _).
  destruct (Z_lt_le_dec d (10 ^ p)) as [|G]; [assumption|exfalso].
  assert (m <> 0) as M0 by (intros ->; rewrite of_dec_0 in Om; lia).
  assert (0 < p) as P0.
  { destruct (Z_lt_le_dec p 0) as [L|L]; [rewrite Z.pow_neg_r in M by lia; lia|]. destruct (Z.eq_dec p 0) as [->|]; [rewrite Z.pow_0_r in M; lia|lia]. }
  pose proof (Mx m e ltac:(lia) Om) as Ek.
  pose proof (up_pos e). pose proof (dn_pos e). pose proof (up_pos k). pose proof (dn_pos k). pose proof (up_pos (k + p)) as U1. pose proof (dn_pos (k + p)) as D1.
  assert (of_dec 1 (k + p) = b) as O1.
  { apply Z.le_antisymm.
    - rewrite <- Od, !of_dec_eq. apply rnd_mono; [lia|exact D1|apply Z.mul_nonneg_nonneg; lia|assumption|].
      rewrite Z.mul_1_l, up_dn_shift by lia. apply Z.mul_le_mono_nonneg_r; [lia|]. apply Z.mul_le_mono_nonneg_r; lia.
    - rewrite <- Om, !of_dec_eq. apply rnd_mono; [apply Z.mul_nonneg_nonneg; lia|assumption|lia|exact D1|].
      pose proof (@up_dn_shift e (k + p - e) ltac:(lia)) as X. replace (e + (k + p - e)) with (k + p) in X by lia. rewrite Z.mul_1_l, X.
      apply Z.mul_le_mono_nonneg_r; [lia|]. apply Z.mul_le_mono_nonneg_r; [lia|].
      apply Z.lt_le_incl. eapply Z.lt_le_trans; [apply M|]. apply Z.pow_le_mono_r; lia. }
  pose proof (Mx 1 (k + p) ltac:(lia) O1). lia.
Qed.

(** ** The nearest *)
Definition off_by (b m k : Z) : Z := Z.abs (m * up k * 2 ^ 1074 - scaled b * dn k).
Lemma search_found b d k fuel k0 : search fuel b k0 = (d, k) -> 0 < d -> at_step b k = Some d.
Proof.
  revert k0. induction fuel as [|f IH]; intros k0; cbn [search]; [intros [= <- _]; lia|].
  destruct (at_step b k0) as [d0|] eqn:A; [intros [= <- <-] _; exact A|apply IH].
Qed.
Lemma nearest_step b d k m : 0 < b < inf -> shortest b = (d, k) -> 0 <= m -> of_dec m k = b -> off_by b d k <= off_by b m k.
Proof.
  intros B Es M Om. destruct (shortest_spec B Es) as (D0 & Od & _ & _ & Dq). pose proof (search_found _ _ _ Es D0) as A.
  unfold at_step in A. rewrite around_eq in A by lia. cbv zeta in A. fold (quot b k) in A.
  assert (0 <= b) as B0 by lia. pose proof (quot_nonneg k B0) as Q0. pose proof (up_pos k) as Up. pose proof (dn_pos k) as Dp. pose proof two_pos as Tp.
  pose proof (scaled_nonneg B0) as Sn.
  unfold off_by. set (n := scaled b * dn k) in *. set (u := 2 ^ 1074 * up k) in *.
  assert (0 < u) as U by (apply Z.mul_pos_pos; lia).
  assert (quot b k = n / u) as Eq by reflexivity. rewrite Eq in *. set (q := n / u) in *.
  pose proof (Z.div_mod n u ltac:(lia)) as DM. pose proof (Z.mod_pos_bound n u U) as MB. fold q in DM. set (r := n mod u) in *.
  replace (d * up k * 2 ^ 1074) with (d * u) by (unfold u; ring). replace (m * up k * 2 ^ 1074) with (m * u) by (unfold u; ring).
  assert (m <= q -> of_dec q k = b) as Lq.
  { intros L. pose proof (@of_dec_mono m q k ltac:(lia)). pose proof (@quot_below b k q ltac:(lia)) as X. rewrite Eq in X. lia. }
  assert (q + 1 <= m -> of_dec (q + 1) k = b) as Lq1.
  { intros L. pose proof (@of_dec_mono (q + 1) m k ltac:(lia)). pose proof (@quot_above b k (q + 1) ltac:(lia)) as X. rewrite Eq in X. lia. }
  assert (m * u <= q * u \/ (q + 1) * u <= m * u) as Side.
  { destruct (Z_le_gt_dec m q); [left|right]; apply Z.mul_le_mono_nonneg_r; lia. }
  assert ((q + 1) * u = q * u + u) as Ring by ring. assert (u * q = q * u) as Ring2 by ring.
  clearbody q r n u. clear Eq Tp Up Dp Sn.
  destruct ((u <? 2 * r) || (u =? 2 * r) && Z.odd q) eqn:C; cbn [find] in A.
  - assert (u <= 2 * r) as Ge by (apply orb_true_iff in C as [C|C]; [apply Z.ltb_lt in C; lia|apply andb_true_iff in C as [C _]; apply Z.eqb_eq in C; lia]).
    destruct (of_dec (q + 1) k =? b) eqn:F1.
    + injection A as <-. lia.
    + destruct (of_dec q k =? b) eqn:F2; [injection A as <-|discriminate A].
      destruct (Z_le_gt_dec m q) as [L|L]; [assert (m * u <= q * u) by (apply Z.mul_le_mono_nonneg_r; lia); lia|]. apply Z.eqb_neq in F1. elim F1. apply Lq1. lia.
  - assert (2 * r <= u) as Le by (apply orb_false_iff in C as [C _]; apply Z.ltb_ge in C; lia).
    destruct (of_dec q k =? b) eqn:F1.
    + injection A as <-. lia.
    + destruct (of_dec (q + 1) k =? b) eqn:F2; [injection A as <-|discriminate A].
      destruct (Z_le_gt_dec m q) as [L|L]; [apply Z.eqb_neq in F1; elim F1; now apply Lq|]. assert ((q + 1) * u <= m * u) by (apply Z.mul_le_mono_nonneg_r; lia). lia.
Qed.

(** ** The theorem

    [V * 10^q] is the absolute value of the text, as in C57_number; it is the
    decimal [m * 10^e].  [nearest n d b] (F64.v): [b] is the double nearest to
    [n / d]. *)
Theorem C57_shortest bits : wf_raw (RFlt bits) = true ->
  let a := magnitude_of bits in
  exists ip fr ex, format64 bits = (if (2 ^ 63 <=? bits)%N then [x2d] else []) ++ ip ++ fr ++ ex /\
    int_part ip /\ frac_part fr /\ exp_part ex /\
    let V := Z.of_N (value_of (ip ++ tl fr)) in
    let q := exp_val ex - Z.of_nat (length (tl fr)) in
    exists m e, 0 <= m /\
      V * 10 ^ Z.max 0 q * 10 ^ Z.max 0 (- e) = m * 10 ^ Z.max 0 e * 10 ^ Z.max 0 (- q) /\
      nearest (m * 10 ^ Z.max 0 e) (10 ^ Z.max 0 (- e)) a /\
      (forall p m' e', 0 <= m' < 10 ^ p -> nearest (m' * 10 ^ Z.max 0 e') (10 ^ Z.max 0 (- e')) a -> m < 10 ^ p) /\
      (forall m', 0 <= m' -> nearest (m' * 10 ^ Z.max 0 e) (10 ^ Z.max 0 (- e)) a ->
        Z.abs (m * 10 ^ Z.max 0 e * 2 ^ 1074 - scaled a * 10 ^ Z.max 0 (- e)) <=
        Z.abs (m' * 10 ^ Z.max 0 e * 2 ^ 1074 - scaled a * 10 ^ Z.max 0 (- e))).
Proof.
  intros W a. destruct (finite_bits _ W) as [B64 Fin]. change (Z.of_N (bits mod 2 ^ 63)) with a in Fin.
  assert (forall m e, 0 <= m -> nearest (m * 10 ^ Z.max 0 e) (10 ^ Z.max 0 (- e)) a -> of_dec m e = a) as Nr.
  { intros m e M N. rewrite of_dec_eq. apply rnd_is; [apply Z.mul_nonneg_nonneg; [lia|apply Z.pow_nonneg; lia]|apply dn_pos|exact N]. }
  assert (forall m e, 0 <= m -> of_dec m e = a -> nearest (m * 10 ^ Z.max 0 e) (10 ^ Z.max 0 (- e)) a) as Rn.
  { intros m e M <-. rewrite of_dec_eq. apply nearest_rnd; [apply Z.mul_nonneg_nonneg; [lia|apply Z.pow_nonneg; lia]|apply dn_pos]. }
  destruct (Z.eq_dec a 0) as [Z0|Nz].
  - exists [x30], [x2e; x30], []. split; [unfold format64; change (Z.of_N (bits mod 2 ^ 63)) with a; rewrite Z0; reflexivity|].
    split; [exists x30, []; repeat split|]. split; [right; exists [x30]; repeat split; discriminate|]. split; [now left|]. cbv zeta.
    exists 0, 0. split; [lia|]. split; [reflexivity|]. split; [apply Rn; [lia|]; rewrite of_dec_0; congruence|]. split.
    + intros p m' e' M _. lia.
    + intros m' M _. rewrite Z0. change (scaled 0) with 0. rewrite !Z.mul_0_l. cbn [Z.sub Z.add Z.opp Z.abs]. lia.
  - assert (0 < a < inf) as A by lia. destruct (shortest a) as [d k] eqn:Es. destruct (shortest_spec A Es) as (D0 & Od & Mx & Kb & _).
    pose proof (shortest_17 A Es) as D17.
    destruct (@layout_shape d k) as (ip & fr & ex & El & Ip & Fr & Ex & Ev & Eq); [split; [lia|]; eapply Z.lt_trans; [exact D17|reflexivity]|lia|].
    exists ip, fr, ex. split; [unfold format64; change (Z.of_N (bits mod 2 ^ 63)) with a; destruct (Z.eqb_spec a 0); [contradiction|]; rewrite Es, El; reflexivity|].
    split; [exact Ip|]. split; [exact Fr|]. split; [exact Ex|]. cbv zeta.
    exists d, k. split; [lia|]. split; [|split; [apply Rn; [lia|exact Od]|split]].
    + assert (value_of (ip ++ tl fr) = val (tl fr) (val ip 0)) as -> by (unfold value_of; rewrite fold_left_app; reflexivity).
      rewrite Ev. change (Z.of_nat (length (tl fr))) with (lenZ (tl fr)). rewrite Eq. unfold spread.
      destruct ((0 <=? k) && _) eqn:C; cbn [fst snd]; [|ring]. apply andb_true_iff in C as [C _]. apply Z.leb_le in C.
      rewrite (Z.max_r 0 k), (Z.max_l 0 (- k)), Z.pow_add_r by lia. change (Z.max 0 (-1)) with 0. change (Z.max 0 (- -1)) with 1. rewrite !Z.pow_0_r. ring.
    + intros p m' e' M N. apply Nr in N; [|lia]. exact (fewest _ _ A Es M N).
    + intros m' M N. apply Nr in N; [|lia]. exact (nearest_step A Es M N).
Qed.

(** 0.1, -123456.789 and 1e17: one, nine and one digits. *)
Example C57_shortest_case :
  map format64 [0x3FB999999999999A; 0xC0FE240C9FBE76C9; 0x4376345785D8A000]%N =
    [[x30; x2e; x31]; [x2d; x31; x32; x33; x34; x35; x36; x2e; x37; x38; x39]; [x31; x65; x31; x37]] /\
  Forall (fun b => wf_raw (RFlt b) = true) [0x3FB999999999999A; 0xC0FE240C9FBE76C9; 0x4376345785D8A000]%N.
Proof. split; [vm_compute; reflexivity|repeat constructor]. Qed.

(** ** The length

    ryu writes into a buffer of 24 bytes without checking (its [Buffer] is
    [[MaybeUninit<u8>; 24]] and [format64] is unsafe): the text never exceeds it. *)
Lemma digits_at_most d p : 0 < d < 10 ^ p -> 0 <= p -> lenZ (decimal (Z.to_N d)) <= p.
Proof.
  intros D P. pose proof (@decimal_length (Z.to_N d) ltac:(lia)) as Len. rewrite Z2N.id in Len by lia. set (l := lenZ _) in *.
  destruct (Z_le_gt_dec l p) as [|G]; [assumption|exfalso].
  assert (10 ^ p <= 10 ^ (l - 1)) by (apply Z.pow_le_mono_r; lia). lia.
Qed.
Lemma expo_length z : -999 <= z <= 999 -> lenZ (expo z) <= 4.
Proof.
  intros Z0. unfold expo. destruct (Z.eq_dec z 0) as [->|N]; [unfold lenZ; cbn; lia|].
  pose proof (@digits_at_most (Z.abs z) 3 ltac:(split; [lia|change (10 ^ 3) with 1000; lia]) ltac:(lia)) as D.
  unfold lenZ in *. rewrite app_length. destruct (z <? 0); cbn [length]; lia.
Qed.
Lemma layout_length d k : 0 < d < 10 ^ 17 -> -400 <= k <= 400 -> lenZ (layout d k) <= 23.
Proof.
  intros D K. pose proof (@digits_at_most d 17 D ltac:(lia)) as L. unfold layout. set (ds := decimal (Z.to_N d)) in *.
  change (Z.of_nat (length ds)) with (lenZ ds). assert (0 <= lenZ ds) as L0 by (unfold lenZ; lia).
  pose proof (@expo_length (lenZ ds + k - 1) ltac:(lia)) as X.
  destruct ((0 <=? k) && (lenZ ds + k <=? 16)) eqn:C1; [|destruct ((0 <? lenZ ds + k) && (lenZ ds + k <=? 16)) eqn:C2;
    [|destruct ((-5 <? lenZ ds + k) && (lenZ ds + k <=? 0)) eqn:C3; [|destruct (lenZ ds =? 1) eqn:C4]]].
  - apply andb_true_iff in C1 as [C1 C1']. apply Z.leb_le in C1, C1'.
    unfold lenZ in *. rewrite !app_length. unfold zeros. rewrite repeat_length. cbn [length]. lia.
  - clear X. assert (lenZ (firstn (Z.to_nat (lenZ ds + k)) ds ++ x2e :: skipn (Z.to_nat (lenZ ds + k)) ds) = lenZ ds + 1) as ->; [|lia].
    rewrite <- (firstn_skipn (Z.to_nat (lenZ ds + k)) ds) at 5. unfold lenZ. rewrite !app_length. cbn [length]. lia.
  - apply andb_true_iff in C3 as [C3 C3']. apply Z.ltb_lt in C3. apply Z.leb_le in C3'.
    unfold lenZ in *. cbn [length]. rewrite app_length. unfold zeros. rewrite repeat_length. lia.
  - apply Z.eqb_eq in C4. unfold lenZ in *. rewrite app_length. cbn [length]. lia.
  - assert (lenZ (firstn 1 ds) + lenZ (skipn 1 ds) = lenZ ds) as E by (unfold lenZ; rewrite <- Nat2Z.inj_add, <- app_length, firstn_skipn; reflexivity).
    unfold lenZ in *. rewrite app_length. cbn [length]. rewrite app_length. cbn [length]. lia.
Qed.
Theorem C57_length bits : wf_raw (RFlt bits) = true -> (length (format64 bits) <= 24)%nat.
Proof.
  intros W. destruct (finite_bits _ W) as [B64 Fin]. unfold format64. set (a := Z.of_N (bits mod 2 ^ 63)) in *.
  rewrite app_length. assert (length (if (2 ^ 63 <=? bits)%N then [x2d] else []) <= 1)%nat as S1 by (destruct (2 ^ 63 <=? bits)%N; cbn; lia).
  destruct (Z.eqb_spec a 0) as [Z0|Nz]; [cbn [length]; lia|].
  assert (0 < a < inf) as A by (unfold a in *; lia). destruct (shortest a) as [d k] eqn:Es.
  destruct (shortest_spec A Es) as (D0 & Od & _ & Kb & _). pose proof (shortest_17 A Es) as D17.
  pose proof (@layout_length d k ltac:(lia) ltac:(lia)) as L. unfold lenZ in L. lia.
Qed.
(** -1.2345678901234568e-5 fills it. *)
Example C57_length_case : length (format64 0xbee9e409302678ba) = 24%nat /\ wf_raw (RFlt 0xbee9e409302678ba) = true.
Proof. split; [vm_compute|]; reflexivity. Qed.
