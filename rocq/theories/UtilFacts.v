(** * Facts about util.rs: next_uuid, keys, readers, identifiers. *)
From Verif Require Import Base OMap Json Types Util.
From Coq Require Import ZifyBool ZifyNat ZifyN.

Set Implicit Arguments.

(** ** Byte strings of equal length as numbers *)

(** Big-endian value. *)
Fixpoint bev (l : list byte) : N :=
  match l with [] => 0%N | b :: r => (bN b * 256 ^ lenN r + bev r)%N end.

Lemma lenN_cons {A} (a : A) l : lenN (a :: l) = N.succ (lenN l).
Proof. unfold lenN. cbn [length]. lia. Qed.

Lemma pow256_pos n : (0 < 256 ^ n)%N.
Proof. apply N.neq_0_lt_0, N.pow_nonzero. discriminate. Qed.

Lemma bev_bound l : (bev l < 256 ^ lenN l)%N.
Proof.
  induction l as [|b l IH]; [reflexivity|].
  cbn [bev]. rewrite lenN_cons, N.pow_succ_r'. pose proof (bN_bound b).
  assert (bN b * 256 ^ lenN l <= 255 * 256 ^ lenN l)%N by (apply N.mul_le_mono_r; lia). lia.
Qed.

Lemma list_cmp_bev a : forall b, length a = length b -> list_cmp a b = N.compare (bev a) (bev b).
Proof.
  induction a as [|x a IH]; intros [|y b] H; try discriminate; [reflexivity|].
  injection H as H. cbn [bev list_cmp].
  assert (lenN a = lenN b) as HL by (unfold lenN; now rewrite H).
  rewrite HL. pose proof (bev_bound a) as Ba. pose proof (bev_bound b) as Bb. rewrite HL in Ba.
  change (cmp x y) with (N.compare (bN x) (bN y)).
  set (p := (256 ^ lenN b)%N) in *.
  destruct (N.compare_spec (bN x) (bN y)) as [E|L|L].
  - rewrite IH by assumption. rewrite E. symmetry.
    destruct (N.compare_spec (bev a) (bev b)).
    + apply N.compare_eq_iff. lia.
    + apply N.compare_lt_iff. lia.
    + apply N.compare_gt_iff. lia.
  - symmetry. apply N.compare_lt_iff.
    assert ((bN x + 1) * p <= bN y * p)%N by (apply N.mul_le_mono_r; lia). lia.
  - symmetry. apply N.compare_gt_iff.
    assert ((bN y + 1) * p <= bN x * p)%N by (apply N.mul_le_mono_r; lia). lia.
Qed.

Lemma bev_app l b : bev (l ++ [b]) = (256 * bev l + bN b)%N.
Proof.
  induction l as [|x l IH].
  - cbn. lia.
  - cbn [app bev]. rewrite IH. unfold lenN. rewrite app_length. cbn [length].
    replace (N.of_nat (length l + 1)) with (N.succ (N.of_nat (length l))) by lia.
    rewrite N.pow_succ_r'. lia.
Qed.

Lemma incr_rev_value l :
  match incr_rev l with
  | Some l' => length l' = length l /\ bev (rev l') = (bev (rev l) + 1)%N
  | None => (bev (rev l) + 1 = 256 ^ lenN l)%N
  end.
Proof.
  induction l as [|b l IH]; cbn [incr_rev]; [reflexivity|].
  pose proof (bN_bound b) as Hb.
  destruct (N.ltb_spec (bN b) 255) as [L|L].
  - split; [reflexivity|]. cbn [rev]. rewrite !bev_app, bN_byte_of, N.mod_small by lia. lia.
  - assert (bN b = 255)%N as Eb by lia.
    destruct (incr_rev l) as [l'|]; cbn [option_map].
    + destruct IH as [HL HV]. split; [cbn; now rewrite HL|].
      cbn [rev]. rewrite !bev_app, HV, Eb. change (bN x00) with 0%N. lia.
    + cbn [rev]. rewrite bev_app, Eb, lenN_cons, N.pow_succ_r'. lia.
Qed.

Definition uval (u : uuid) : N := bev (ub u).

Lemma uuid_cmp_val u v : cmp u v = N.compare (uval u) (uval v).
Proof.
  change (list_cmp (ub u) (ub v) = N.compare (bev (ub u)) (bev (ub v))).
  apply list_cmp_bev. now rewrite !ub_length.
Qed.
Lemma lt_uval u v : lt u v <-> (uval u < uval v)%N.
Proof. unfold lt. rewrite uuid_cmp_val. apply N.compare_lt_iff. Qed.
Lemma uval_inj u v : uval u = uval v -> u = v.
Proof. intros H. apply cmp_eq. rewrite uuid_cmp_val, H. apply N.compare_refl. Qed.
Lemma uval_bound u : (uval u < 256 ^ 16)%N.
Proof. unfold uval. pose proof (bev_bound (ub u)) as H. unfold lenN in H. now rewrite ub_length in H. Qed.

Lemma mk_uuid_ub l : length l = 16 -> exists u, mk_uuid l = Some u /\ ub u = l.
Proof.
  intros H. unfold mk_uuid. destruct (bool_dec (Nat.eqb (length l) 16) true) as [e|n].
  - eexists. split; reflexivity.
  - exfalso. apply n. now apply Nat.eqb_eq.
Qed.
Lemma mk_uuid_of u : mk_uuid (ub u) = Some u.
Proof.
  destruct (mk_uuid_ub (ub u) (ub_length u)) as (v & E & H). rewrite E. f_equal. now apply ub_inj.
Qed.

Lemma next_uuid_value u :
  match next_uuid u with
  | Ok v => uval v = (uval u + 1)%N
  | Err e => e = Invalid CannotIncrementUuid /\ (uval u + 1 = 256 ^ 16)%N
  | Panic => False
  end.
Proof.
  unfold next_uuid, next_bytes. pose proof (incr_rev_value (rev (ub u))) as H.
  destruct (incr_rev (rev (ub u))) as [l|]; cbn [option_map].
  - destruct H as [HL HV]. rewrite rev_involutive in HV.
    rewrite rev_length, ub_length in HL.
    destruct (@mk_uuid_ub (rev l)) as (v & E & Hv); [now rewrite rev_length|].
    rewrite E. unfold uval. now rewrite Hv.
  - split; [reflexivity|]. rewrite rev_involutive in H. unfold lenN in H. rewrite rev_length, ub_length in H.
    exact H.
Qed.

(** The largest UUID: no UUID is above it. *)
Definition is_max (u : uuid) : Prop := forall w, ~ lt u w.

Lemma next_uuid_max u : is_max u <-> next_uuid u = Err (Invalid CannotIncrementUuid).
Proof.
  pose proof (next_uuid_value u) as H. split.
  - intros M. destruct (next_uuid u) as [v|e|].
    + exfalso. apply (M v). apply lt_uval. lia.
    + now destruct H as [-> _].
    + contradiction.
  - intros E w L. rewrite E in H. destruct H as [_ H]. apply lt_uval in L. pose proof (uval_bound w). lia.
Qed.

Lemma next_uuid_succ u v : next_uuid u = Ok v -> lt u v /\ forall w, lt u w -> w = v \/ lt v w.
Proof.
  intros E. pose proof (next_uuid_value u) as H. rewrite E in H. split.
  - apply lt_uval. lia.
  - intros w L. apply lt_uval in L. destruct (N.eq_dec (uval w) (uval v)) as [Ew|Nw].
    + left. now apply uval_inj.
    + right. apply lt_uval. lia.
Qed.

Lemma next_uuid_total u : (exists v, next_uuid u = Ok v) \/ next_uuid u = Err (Invalid CannotIncrementUuid).
Proof.
  pose proof (next_uuid_value u) as H. destruct (next_uuid u) as [v|e|]; [left; eauto|right|contradiction].
  now destruct H as [-> _].
Qed.

(** Being below the successor is being at or below. *)
Lemma below_next u v w : next_uuid u = Ok v -> (lt w v <-> w = u \/ lt w u).
Proof.
  intros E. destruct (next_uuid_succ u E) as [L S]. split.
  - intros Lw. destruct (cmp_case w u) as [H|[H|H]]; auto. exfalso.
    destruct (S w H) as [->|H']; [now apply lt_irrefl in Lw|]. now apply lt_asym in Lw.
  - intros [->|H]; [assumption|]. eapply lt_trans; eauto.
Qed.

Lemma ident_empty_min n : ~ lt n empty_ident.
Proof. unfold lt. cbn. destruct (ib n); easy. Qed.
