(** * Facts about JSON comparison and hashing. *)
From Verif Require Import Base OMap Json.
From Coq Require Import ZifyBool ZifyNat ZifyN.

Set Implicit Arguments.

(** ** Induction over values *)

Section RawInd.
  Variable P : raw -> Prop.
  Hypothesis Hnull : P RNull.
  Hypothesis Hbool : forall b, P (RBool b).
  Hypothesis Hpos : forall n, P (RPos n).
  Hypothesis Hneg : forall z, P (RNeg z).
  Hypothesis Hflt : forall b, P (RFlt b).
  Hypothesis Hstr : forall s, P (RStr s).
  Hypothesis Harr : forall l, Forall P l -> P (RArr l).
  Hypothesis Hobj : forall l, Forall (fun kv => P (snd kv)) l -> P (RObj l).

  Fixpoint raw_nested_ind (v : raw) : P v :=
    match v with
    | RNull => Hnull
    | RBool b => Hbool b
    | RPos n => Hpos n
    | RNeg z => Hneg z
    | RFlt b => Hflt b
    | RStr s => Hstr s
    | RArr l => Harr ((fix go (l : list raw) : Forall P l :=
                         match l with
                         | [] => Forall_nil _
                         | x :: r => Forall_cons _ (raw_nested_ind x) (go r)
                         end) l)
    | RObj l => Hobj ((fix go (l : list (list byte * raw)) : Forall (fun kv => P (snd kv)) l :=
                         match l with
                         | [] => Forall_nil _
                         | x :: r => Forall_cons _ (raw_nested_ind (snd x)) (go r)
                         end) l)
    end.
End RawInd.

(** A property of all numbers occurring in a value. *)
Fixpoint nums (p : raw -> bool) (v : raw) : bool :=
  match v with
  | RPos _ | RNeg _ | RFlt _ => p v
  | RArr l => forallb (nums p) l
  | RObj l => forallb (fun kv => nums p (snd kv)) l
  | _ => true
  end.

(** ** Numbers *)

Definition is_int (v : raw) : bool := match v with RPos _ | RNeg _ => true | _ => false end.
Definition is_flt (v : raw) : bool := match v with RFlt _ => true | _ => false end.

(** The integer denoted by an integer. *)
Definition zval (v : raw) : Z := match v with RPos n => Z.of_N n | RNeg z => z | _ => 0%Z end.

Lemma num_cmp_int a b : wf_raw a = true -> wf_raw b = true -> is_int a = true -> is_int b = true ->
  num_cmp a b = Some (Z.compare (zval a) (zval b)).
Proof.
  intros Ha Hb Ia Ib. destruct a as [| |n| z| | | |]; try discriminate; destruct b as [| |m|y| | | |]; try discriminate;
    unfold num_cmp; cbn [as_i64 as_u64 zval wf_raw] in *.
  - destruct (N.leb_spec n (2 ^ 63 - 1)) as [Hn|Hn], (N.leb_spec m (2 ^ 63 - 1)) as [Hm|Hm]; auto.
    + unfold i64_of_u64. destruct (N.leb_spec m (2 ^ 63 - 1)) as [Hm'|_]; [lia|].
      f_equal. symmetry. apply Z.compare_lt_iff. lia.
    + unfold u64_of_i64. destruct (Z.ltb_spec (Z.of_N m) 0) as [H|_]; [lia|].
      rewrite N2Z.id. f_equal. symmetry. apply N2Z.inj_compare.
    + f_equal. symmetry. apply N2Z.inj_compare.
  - apply andb_true_iff in Hb as [_ Hb]. apply Z.ltb_lt in Hb.
    destruct (N.leb_spec n (2 ^ 63 - 1)) as [Hn|Hn]; auto.
    unfold u64_of_i64. destruct (Z.ltb_spec y 0) as [_|H]; [|lia].
    f_equal. symmetry. apply Z.compare_gt_iff. lia.
  - apply andb_true_iff in Ha as [_ Ha]. apply Z.ltb_lt in Ha.
    destruct (N.leb_spec m (2 ^ 63 - 1)) as [Hm|Hm]; auto.
    unfold i64_of_u64. destruct (N.leb_spec m (2 ^ 63 - 1)) as [Hm'|_]; [lia|].
    f_equal. symmetry. apply Z.compare_lt_iff. lia.
  - reflexivity.
Qed.

Lemma as_f64_int a : is_int a = true -> as_f64 a = int_as_f64 (zval a).
Proof. destruct a; cbn; try discriminate; reflexivity. Qed.

Lemma num_cmp_flt a b : is_num a = true -> is_num b = true -> is_flt a || is_flt b = true ->
  num_cmp a b = Some (Z.compare (as_f64 a) (as_f64 b)).
Proof.
  intros Ha Hb Hf. destruct a as [| |n|z|x| | |]; try discriminate; destruct b as [| |m|y|w| | |]; try discriminate;
    unfold num_cmp; cbn [as_i64 as_u64] in *; try discriminate.
  - destruct (N.leb_spec n (2 ^ 63 - 1)); reflexivity.
  - reflexivity.
  - destruct (N.leb_spec m (2 ^ 63 - 1)); reflexivity.
  - reflexivity.
  - reflexivity.
Qed.

Lemma num_kind a : is_num a = true -> is_int a = true \/ is_flt a = true.
Proof. destruct a; cbn; auto. Qed.

Lemma num_cmp_refl a : wf_raw a = true -> is_num a = true -> num_cmp a a = Some Eq.
Proof.
  intros W Ha. destruct (num_kind _ Ha) as [I|F].
  - rewrite num_cmp_int by assumption. now rewrite Z.compare_refl.
  - rewrite num_cmp_flt by (auto; now rewrite F). now rewrite Z.compare_refl.
Qed.

Lemma num_cmp_sym a b : wf_raw a = true -> wf_raw b = true -> is_num a = true -> is_num b = true ->
  num_cmp b a = option_map CompOpp (num_cmp a b).
Proof.
  intros Wa Wb Ha Hb. destruct (num_kind _ Ha) as [I|F], (num_kind _ Hb) as [J|G].
  - rewrite !num_cmp_int by assumption. cbn. now rewrite <- Z.compare_antisym.
  - rewrite !num_cmp_flt by (auto; rewrite G, ?orb_true_r; auto). cbn. now rewrite <- Z.compare_antisym.
  - rewrite !num_cmp_flt by (auto; rewrite F, ?orb_true_r; auto). cbn. now rewrite <- Z.compare_antisym.
  - rewrite !num_cmp_flt by (auto; rewrite F, ?orb_true_r; auto). cbn. now rewrite <- Z.compare_antisym.
Qed.

Lemma num_cmp_some a b : is_num a = true -> is_num b = true -> exists c, num_cmp a b = Some c.
Proof.
  intros Ha Hb. unfold num_cmp.
  repeat match goal with |- context [match ?x with _ => _ end] => destruct x end; eauto.
Qed.

(** ** Reflexivity and symmetry *)

Lemma pcmp_nums a b : is_num a = true -> is_num b = true -> pcmp a b = num_cmp a b.
Proof. destruct a; try discriminate; destruct b; try discriminate; reflexivity. Qed.

Definition pair_pcmp (p q : list byte * raw) : option comparison :=
  match cmp (fst p) (fst q) with Eq => pcmp (snd p) (snd q) | c => Some c end.

Lemma pcmp_arr x y : pcmp (RArr x) (RArr y) = partial_cmp_by pcmp x y.
Proof. reflexivity. Qed.
Lemma pcmp_obj x y : pcmp (RObj x) (RObj y) = partial_cmp_by pair_pcmp x y.
Proof. reflexivity. Qed.

Lemma forallb_forall_In {A} (p : A -> bool) l x : forallb p l = true -> In x l -> p x = true.
Proof. rewrite forallb_forall. auto. Qed.

Lemma by_refl {A} (f : A -> A -> option comparison) l :
  Forall (fun x => f x x = Some Eq) l -> partial_cmp_by f l l = Some Eq.
Proof. induction 1 as [|x l Hx _ IH]; cbn; [reflexivity|]. now rewrite Hx. Qed.

Lemma by_sym {A} (f : A -> A -> option comparison) l l' :
  Forall (fun x => forall y, In y l' -> f y x = option_map CompOpp (f x y)) l ->
  partial_cmp_by f l' l = option_map CompOpp (partial_cmp_by f l l').
Proof.
  revert l'. induction l as [|x l IH]; intros [|y l'] H; cbn; auto.
  inversion H as [|? ? Hx Hl]; subst.
  rewrite (Hx y (or_introl eq_refl)). destruct (f x y) as [[]|]; cbn; auto.
  apply IH. eapply Forall_impl; [|exact Hl]. cbn. auto.
Qed.

Lemma pcmp_refl a : wf_raw a = true -> pcmp a a = Some Eq.
Proof.
  induction a as [|b|n|z|b|s|l IH|l IH] using raw_nested_ind; intros W; auto.
  - now destruct b.
  - change (num_cmp (RPos n) (RPos n) = Some Eq). now apply num_cmp_refl.
  - change (num_cmp (RNeg z) (RNeg z) = Some Eq). now apply num_cmp_refl.
  - change (num_cmp (RFlt b) (RFlt b) = Some Eq). now apply num_cmp_refl.
  - change (Some (cmp s s) = Some Eq). now rewrite cmp_refl.
  - rewrite pcmp_arr. apply by_refl. rewrite Forall_forall in *. intros x Hx.
    apply IH; auto. cbn in W. eapply forallb_forall_In in W; eauto.
  - rewrite pcmp_obj. apply by_refl. rewrite Forall_forall in *. intros x Hx.
    unfold pair_pcmp. rewrite cmp_refl. apply IH; auto. cbn in W. apply andb_true_iff in W as [_ W].
    eapply forallb_forall_In in W; eauto. cbn in W. now apply andb_true_iff in W.
Qed.

Lemma bool_cmp_sym a b : bool_cmp b a = CompOpp (bool_cmp a b).
Proof. now destruct a, b. Qed.

Lemma pcmp_sym a : forall b, wf_raw a = true -> wf_raw b = true -> pcmp b a = option_map CompOpp (pcmp a b).
Proof.
  induction a as [|x|n|z|x|s|l IH|l IH] using raw_nested_ind; intros b Wa Wb.
  - destruct b; reflexivity.
  - destruct b; try reflexivity. cbn. now rewrite bool_cmp_sym.
  - destruct b; try reflexivity; rewrite !pcmp_nums by reflexivity; now apply num_cmp_sym.
  - destruct b; try reflexivity; rewrite !pcmp_nums by reflexivity; now apply num_cmp_sym.
  - destruct b; try reflexivity; rewrite !pcmp_nums by reflexivity; now apply num_cmp_sym.
  - destruct b as [| | | | |s'| |]; try reflexivity.
    change (Some (cmp s' s) = option_map CompOpp (Some (cmp s s'))). cbn [option_map]. now rewrite (cmp_antisym s s').
  - destruct b as [| | | | | |l'|]; try reflexivity. rewrite !pcmp_arr. apply by_sym.
    rewrite Forall_forall in *. intros x Hx y Hy. cbn in Wa, Wb.
    apply IH; auto; [exact (forallb_forall_In _ _ _ Wa Hx)|exact (forallb_forall_In _ _ _ Wb Hy)].
  - destruct b as [| | | | | | |l']; try reflexivity. rewrite !pcmp_obj. apply by_sym.
    rewrite Forall_forall in *. intros x Hx y Hy. cbn in Wa, Wb.
    apply andb_true_iff in Wa as [_ Wa]. apply andb_true_iff in Wb as [_ Wb].
    eapply forallb_forall_In in Wa; [|exact Hx]. eapply forallb_forall_In in Wb; [|exact Hy]. cbn in Wa, Wb.
    apply andb_true_iff in Wa as [_ Wa]. apply andb_true_iff in Wb as [_ Wb].
    unfold pair_pcmp. rewrite (cmp_antisym (fst x) (fst y)).
    destruct (cmp (fst x) (fst y)); cbn; auto.
Qed.

(** ** Transitivity, where numbers are comparable through an exact value *)

(** Composition of two comparisons, where it is determined. *)
Definition comb (c1 c2 : comparison) : option comparison :=
  match c1, c2 with
  | Eq, c => Some c
  | c, Eq => Some c
  | Lt, Lt => Some Lt
  | Gt, Gt => Some Gt
  | _, _ => None
  end.

Lemma Z_comb x y z c : comb (Z.compare x y) (Z.compare y z) = Some c -> Z.compare x z = c.
Proof.
  destruct (Z.compare_spec x y), (Z.compare_spec y z); cbn; intros E; inversion E; subst; clear E;
    rewrite ?Z.compare_refl, ?Z.compare_lt_iff, ?Z.compare_gt_iff; auto; lia.
Qed.

Lemma ord_comb {A} {O : Ord A} (x y z : A) c : comb (cmp x y) (cmp y z) = Some c -> cmp x z = c.
Proof.
  destruct (cmp x y) eqn:E1, (cmp y z) eqn:E2; cbn; intros E; inversion E; subst; clear E.
  - apply cmp_eq in E1, E2. subst. apply cmp_refl.
  - apply cmp_eq in E1. now subst.
  - apply cmp_eq in E1. now subst.
  - apply cmp_eq in E2. now subst.
  - eapply cmp_lt_trans; eauto.
  - apply cmp_eq in E2. now subst.
  - apply gt_lt in E1, E2. apply gt_lt. eapply lt_trans; eauto.
Qed.

Lemma by_comb {A} (f : A -> A -> option comparison) l1 : forall l2 l3 c1 c2 c,
  Forall (fun x => forall y z c1 c2 c, In y l2 -> In z l3 ->
            f x y = Some c1 -> f y z = Some c2 -> comb c1 c2 = Some c -> f x z = Some c) l1 ->
  partial_cmp_by f l1 l2 = Some c1 -> partial_cmp_by f l2 l3 = Some c2 -> comb c1 c2 = Some c ->
  partial_cmp_by f l1 l3 = Some c.
Proof.
  induction l1 as [|x l1 IH]; intros [|y l2] [|z l3] c1 c2 c H; cbn [partial_cmp_by].
  - intros E1 E2. inversion E1; inversion E2; subst. cbn. auto.
  - intros E1 E2. inversion E1; inversion E2; subst. cbn. auto.
  - intros E1 E2. inversion E1; inversion E2; subst. discriminate.
  - intros E1 E2. inversion E1; subst. destruct c2; cbn; intros E; inversion E; reflexivity.
  - intros E1 E2. inversion E1; inversion E2; subst. cbn. auto.
  - intros E1 E2. inversion E1; inversion E2; subst. discriminate.
  - intros E1 E2. inversion E2; subst. destruct c1; cbn; intros E; inversion E; reflexivity.
  - inversion H as [|? ? Hx Hl]; subst.
    intros E1 E2 Ec.
    destruct (f x y) as [d1|] eqn:F1; [|discriminate].
    destruct (f y z) as [d2|] eqn:F2; [|discriminate].
    assert (forall d, comb d1 d2 = Some d -> f x z = Some d) as Hd.
    { intros d Hd. eapply Hx; eauto; now left. }
    assert (d1 = Eq \/ c1 = d1 /\ d1 <> Eq) as D1 by (destruct d1; inversion E1; auto; right; split; congruence).
    assert (d2 = Eq \/ c2 = d2 /\ d2 <> Eq) as D2 by (destruct d2; inversion E2; auto; right; split; congruence).
    destruct D1 as [->|[-> N1]], D2 as [->|[-> N2]].
    + rewrite (Hd Eq eq_refl). eapply IH; eauto. eapply Forall_impl; [|exact Hl].
      cbn. intros a Ha b1 b2 e1 e2 e Hb1 Hb2. apply Ha; auto.
    + rewrite (Hd d2 eq_refl). destruct c1, d2; cbn in Ec; inversion Ec; subst; auto; now destruct N2.
    + rewrite (Hd d1); [|now destruct d1]. destruct d1, c2; cbn in Ec; inversion Ec; subst; auto; now destruct N1.
    + rewrite (Hd c); auto. destruct c; auto. destruct d1, d2; cbn in Ec; inversion Ec; now destruct N1.
Qed.

Section Exact.
  (** On numbers satisfying [P] comparison is comparison of exact values. *)
  Variable P : raw -> bool.
  Variable f : raw -> Z.
  Hypothesis HP : forall a b, wf_raw a = true -> wf_raw b = true -> is_num a = true -> is_num b = true ->
    P a = true -> P b = true -> num_cmp a b = Some (Z.compare (f a) (f b)).

  Lemma pcmp_comb a : forall b c c1 c2 r,
    wf_raw a = true -> wf_raw b = true -> wf_raw c = true ->
    nums P a = true -> nums P b = true -> nums P c = true ->
    pcmp a b = Some c1 -> pcmp b c = Some c2 -> comb c1 c2 = Some r -> pcmp a c = Some r.
  Proof.
    assert (forall a b c c1 c2 r, is_num a = true -> is_num b = true -> is_num c = true ->
      wf_raw a = true -> wf_raw b = true -> wf_raw c = true ->
      nums P a = true -> nums P b = true -> nums P c = true ->
      pcmp a b = Some c1 -> pcmp b c = Some c2 -> comb c1 c2 = Some r -> pcmp a c = Some r) as Hnum.
    { intros x y z c1 c2 r Ix Iy Iz Wx Wy Wz Px Py Pz. rewrite !pcmp_nums by assumption.
      assert (P x = true) by (destruct x; try discriminate; exact Px).
      assert (P y = true) by (destruct y; try discriminate; exact Py).
      assert (P z = true) by (destruct z; try discriminate; exact Pz).
      rewrite !HP by assumption. intros E1 E2 Ec. inversion E1; inversion E2; subst.
      now rewrite (Z_comb _ _ _ Ec). }
    induction a as [|x|n|z|x|s|l IH|l IH] using raw_nested_ind; intros b c c1 c2 r Wa Wb Wc Pa Pb Pc.
    - intros E1 E2. destruct b; try discriminate E1. destruct c; try discriminate E2. cbn in *.
      inversion E1; inversion E2; subst. cbn. auto.
    - intros E1 E2. destruct b as [|y| | | | | |]; try discriminate E1. destruct c as [|w| | | | | |]; try discriminate E2. cbn in *.
      inversion E1; inversion E2; subst. destruct x, y, w; cbn; intros E; inversion E; auto.
    - intros E1 E2 Ec. destruct b; try discriminate E1; destruct c; try discriminate E2;
        refine (Hnum _ _ _ _ _ _ _ _ _ _ _ _ _ _ _ E1 E2 Ec); auto.
    - intros E1 E2 Ec. destruct b; try discriminate E1; destruct c; try discriminate E2;
        refine (Hnum _ _ _ _ _ _ _ _ _ _ _ _ _ _ _ E1 E2 Ec); auto.
    - intros E1 E2 Ec. destruct b; try discriminate E1; destruct c; try discriminate E2;
        refine (Hnum _ _ _ _ _ _ _ _ _ _ _ _ _ _ _ E1 E2 Ec); auto.
    - intros E1 E2. destruct b as [| | | | |t| |]; try discriminate E1. destruct c as [| | | | |u| |]; try discriminate E2.
      cbn -[cmp] in *. injection E1 as <-. injection E2 as <-. intros E. f_equal. exact (@ord_comb (list byte) Ord_list s t u r E).
    - intros E1 E2. destruct b as [| | | | | |l2|]; try discriminate E1. destruct c as [| | | | | |l3|]; try discriminate E2.
      revert E1 E2.
      rewrite !pcmp_arr. apply by_comb. cbn in *. rewrite Forall_forall in *.
      intros x Hx y z d1 d2 d Hy Hz.
      pose proof (forallb_forall_In _ _ _ Wa Hx). pose proof (forallb_forall_In _ _ _ Wb Hy).
      pose proof (forallb_forall_In _ _ _ Wc Hz). pose proof (forallb_forall_In _ _ _ Pa Hx).
      pose proof (forallb_forall_In _ _ _ Pb Hy). pose proof (forallb_forall_In _ _ _ Pc Hz).
      apply IH; auto.
    - intros E1 E2. destruct b as [| | | | | | |l2]; try discriminate E1. destruct c as [| | | | | | |l3]; try discriminate E2.
      revert E1 E2.
      rewrite !pcmp_obj. apply by_comb. cbn in *. rewrite Forall_forall in *.
      apply andb_true_iff in Wa as [_ Wa]. apply andb_true_iff in Wb as [_ Wb]. apply andb_true_iff in Wc as [_ Wc].
      intros x Hx y z d1 d2 d Hy Hz.
      eapply forallb_forall_In in Wa; [|exact Hx]. eapply forallb_forall_In in Wb; [|exact Hy].
      eapply forallb_forall_In in Wc; [|exact Hz]. cbn in Wa, Wb, Wc.
      apply andb_true_iff in Wa as [_ Wa]. apply andb_true_iff in Wb as [_ Wb]. apply andb_true_iff in Wc as [_ Wc].
      eapply forallb_forall_In in Pa; [|exact Hx]. eapply forallb_forall_In in Pb; [|exact Hy].
      eapply forallb_forall_In in Pc; [|exact Hz]. cbn in Pa, Pb, Pc.
      unfold pair_pcmp. pose proof (@ord_comb _ _ (fst x) (fst y) (fst z)) as HO.
      destruct (cmp (fst x) (fst y)) eqn:K1; destruct (cmp (fst y) (fst z)) eqn:K2.
      + rewrite (HO Eq eq_refl). eapply IH; eauto.
      + rewrite (HO Lt eq_refl). intros _ E2 Ec. inversion E2; subst. destruct d1; inversion Ec; reflexivity.
      + rewrite (HO Gt eq_refl). intros _ E2 Ec. inversion E2; subst. destruct d1; inversion Ec; reflexivity.
      + rewrite (HO Lt eq_refl). intros E1 _ Ec. inversion E1; subst. destruct d2; inversion Ec; reflexivity.
      + rewrite (HO Lt eq_refl). intros E1 E2 Ec. inversion E1; inversion E2; subst. inversion Ec. reflexivity.
      + intros E1 E2 Ec. inversion E1; inversion E2; subst. discriminate.
      + rewrite (HO Gt eq_refl). intros E1 _ Ec. inversion E1; subst. destruct d2; inversion Ec; reflexivity.
      + intros E1 E2 Ec. inversion E1; inversion E2; subst. discriminate.
      + rewrite (HO Gt eq_refl). intros E1 E2 Ec. inversion E1; inversion E2; subst. inversion Ec. reflexivity.
  Qed.
End Exact.

(** Instances of [P]. *)
Lemma exact_ints a b : wf_raw a = true -> wf_raw b = true -> is_num a = true -> is_num b = true ->
  is_int a = true -> is_int b = true -> num_cmp a b = Some (Z.compare (zval a) (zval b)).
Proof. intros. now apply num_cmp_int. Qed.

(** Integers that conversion to [f64] does not change, and all floats. *)
Definition exact_num (v : raw) : bool :=
  match v with RFlt _ => true | RPos _ | RNeg _ => (z_as_f64 (zval v) =? zval v)%Z | _ => false end.

Lemma scale_compare x y : Z.compare (x * 2 ^ 1074) (y * 2 ^ 1074) = Z.compare x y.
Proof.
  rewrite (Z.mul_comm x), (Z.mul_comm y). symmetry. apply Zmult_compare_compat_l.
  apply Z.lt_gt. apply Z.pow_pos_nonneg; lia.
Qed.

Lemma exact_nums a b : wf_raw a = true -> wf_raw b = true -> is_num a = true -> is_num b = true ->
  exact_num a = true -> exact_num b = true -> num_cmp a b = Some (Z.compare (as_f64 a) (as_f64 b)).
Proof.
  intros Wa Wb Na Nb Ea Eb. destruct (num_kind _ Na) as [I|F], (num_kind _ Nb) as [J|G].
  - rewrite num_cmp_int by assumption. rewrite !as_f64_int by assumption. unfold int_as_f64.
    rewrite scale_compare. f_equal.
    assert (z_as_f64 (zval a) = zval a) as -> by (destruct a; try discriminate; now apply Z.eqb_eq).
    assert (z_as_f64 (zval b) = zval b) as -> by (destruct b; try discriminate; now apply Z.eqb_eq).
    reflexivity.
  - apply num_cmp_flt; auto. now rewrite G, orb_true_r.
  - apply num_cmp_flt; auto. now rewrite F.
  - apply num_cmp_flt; auto. now rewrite F.
Qed.

(** Small integers are exact. *)
Lemma small_exact z : (Z.abs z < 2 ^ 53)%Z -> z_as_f64 z = z.
Proof.
  intros H. assert (forall n, (n < 2 ^ 53)%N -> round53 n = n) as R.
  { intros n Hn. unfold round53.
    assert (N.log2 n < 53 \/ n = 0)%N as [L|L].
    { destruct (N.eq_dec n 0); [auto|left]. apply N.log2_lt_pow2; lia. }
    - replace (N.log2 n - 52)%N with 0%N by lia. reflexivity.
    - subst. reflexivity. }
  unfold z_as_f64. destruct (Z.ltb_spec z 0) as [L|L]; rewrite R; lia.
Qed.

(** ** Hash streams *)

Lemma by_eq {A} (f : A -> A -> option comparison) l l' :
  partial_cmp_by f l l' = Some Eq <-> Forall2 (fun x y => f x y = Some Eq) l l'.
Proof.
  split.
  - revert l'. induction l as [|x l IH]; intros [|y l']; cbn; try discriminate; [constructor|].
    destruct (f x y) as [[]|] eqn:E; try discriminate. constructor; auto.
  - induction 1 as [|x y l l' H _ IH]; cbn; [reflexivity|]. now rewrite H.
Qed.

Lemma le_bytes_length k n : length (le_bytes k n) = k.
Proof. revert n; induction k as [|k IH]; intros n; cbn; [reflexivity|]. now rewrite IH. Qed.
Lemma le64_length n : length (le64 n) = 8.
Proof. apply le_bytes_length. Qed.

Lemma le_bytes_inj k : forall n m, (n < 256 ^ N.of_nat k)%N -> (m < 256 ^ N.of_nat k)%N ->
  le_bytes k n = le_bytes k m -> n = m.
Proof.
  induction k as [|k IH]; intros n m Hn Hm; cbn [le_bytes].
  - change (256 ^ N.of_nat 0)%N with 1%N in *. lia.
  - intros E. injection E as E1 E2.
    apply (f_equal bN) in E1. rewrite !bN_byte_of in E1.
    rewrite Nat2N.inj_succ, N.pow_succ_r' in Hn, Hm.
    assert (n / 256 = m / 256)%N as E3.
    { apply IH; auto; apply N.div_lt_upper_bound; lia. }
    pose proof (N.div_mod n 256 ltac:(discriminate)). pose proof (N.div_mod m 256 ltac:(discriminate)). lia.
Qed.
Lemma le64_inj n m : (n < 2 ^ 64)%N -> (m < 2 ^ 64)%N -> le64 n = le64 m -> n = m.
Proof. intros Hn Hm. apply le_bytes_inj; assumption. Qed.

(** The 64-bit pattern fed to the hasher for a number. *)
Definition pattern_of (v : raw) : N :=
  match v with RPos n => n | RNeg z => u64_of_z z | RFlt b => b | _ => 0%N end.

Lemma pattern_bound v : wf_raw v = true -> (pattern_of v < 2 ^ 64)%N.
Proof.
  destruct v; cbn [wf_raw pattern_of]; try (intros; lia).
  intros _. unfold u64_of_z. pose proof (Z.mod_pos_bound z (2 ^ 64) ltac:(lia)). lia.
Qed.

Lemma stream_num v : is_num v = true -> stream v = x02 :: le64 (pattern_of v).
Proof. destruct v; try discriminate; reflexivity. Qed.

Lemma same_pattern a b : wf_raw a = true -> wf_raw b = true -> is_num a = true -> is_num b = true ->
  stream a = stream b -> pattern_of a = pattern_of b.
Proof.
  intros Wa Wb Ia Ib. rewrite !stream_num by assumption. intros E. apply (f_equal (@tl byte)) in E. cbn [tl] in E.
  apply le64_inj; [now apply pattern_bound|now apply pattern_bound|exact E].
Qed.

Definition kind_of (v : raw) : nat :=
  match v with RPos _ => 0 | RNeg _ => 1 | RFlt _ => 2 | _ => 3 end.

Lemma kind_pattern a b : wf_raw a = true -> wf_raw b = true -> is_num a = true -> is_num b = true ->
  kind_of a = kind_of b -> pattern_of a = pattern_of b -> a = b.
Proof.
  intros Wa Wb Ia Ib. destruct a as [| |n|z|x| | |]; try discriminate; destruct b as [| |m|y|w| | |]; try discriminate; cbn; intros _.
  - now intros ->.
  - cbn [wf_raw] in *. unfold u64_of_z. intros E. f_equal.
    assert (z mod 2 ^ 64 = z + 2 ^ 64)%Z as Ez.
    { symmetry. apply Z.mod_unique with (q := (-1)%Z); lia. }
    assert (y mod 2 ^ 64 = y + 2 ^ 64)%Z as Ey.
    { symmetry. apply Z.mod_unique with (q := (-1)%Z); lia. }
    rewrite Ez, Ey in E. lia.
  - now intros ->.
Qed.

Lemma round53_pos n : (0 < n)%N -> (0 < round53 n)%N.
Proof.
  intros H. unfold round53. destruct (N.eqb_spec (N.log2 n - 52) 0) as [E|E]; [assumption|].
  set (e := (N.log2 n - 52)%N) in *.
  assert (0 < n / 2 ^ e)%N as Q.
  { apply N.div_str_pos. split; [apply N.neq_0_lt_0; apply N.pow_nonzero; discriminate|].
    apply N.log2_le_pow2; auto. lia. }
  assert (0 < 2 ^ e)%N by (apply N.neq_0_lt_0, N.pow_nonzero; discriminate).
  apply N.mul_pos_pos; [|assumption].
  destruct (_ || _); lia.
Qed.

Lemma z_as_f64_sign z : ((0 <= z)%Z -> (0 <= z_as_f64 z)%Z) /\ ((z < 0)%Z -> (z_as_f64 z < 0)%Z).
Proof.
  unfold z_as_f64. destruct (Z.ltb_spec z 0) as [L|L]; split; intros H; try lia.
  pose proof (@round53_pos (Z.to_N (- z)) ltac:(lia)). lia.
Qed.

Lemma scale_pos : (0 < 2 ^ 1074)%Z.
Proof. apply Z.pow_pos_nonneg; lia. Qed.

Lemma some_eq {A} (x y : A) : Some x = Some y -> x = y.
Proof. congruence. Qed.

(** Numbers with the same pattern: equality is transitive. *)
Lemma num_trans a b c :
  wf_raw a = true -> wf_raw b = true -> wf_raw c = true ->
  is_num a = true -> is_num b = true -> is_num c = true ->
  pattern_of a = pattern_of b -> pattern_of b = pattern_of c ->
  num_cmp a b = Some Eq -> num_cmp b c = Some Eq -> num_cmp a c = Some Eq.
Proof.
  intros Wa Wb Wc Ia Ib Ic Pab Pbc Eab Ebc.
  destruct (Nat.eq_dec (kind_of a) (kind_of b)) as [K|K1].
  { now rewrite (kind_pattern _ _ Wa Wb Ia Ib K Pab). }
  destruct (Nat.eq_dec (kind_of b) (kind_of c)) as [K|K2].
  { now rewrite <- (kind_pattern _ _ Wb Wc Ib Ic K Pbc). }
  destruct (Nat.eq_dec (kind_of a) (kind_of c)) as [K|K3].
  { rewrite <- (kind_pattern _ _ Wa Wc Ia Ic K (eq_trans Pab Pbc)). now apply num_cmp_refl. }
  exfalso.
  assert (forall n z, wf_raw (RNeg z) = true ->
    (num_cmp (RPos n) (RNeg z) = Some Eq \/ num_cmp (RNeg z) (RPos n) = Some Eq \/
     exists x, (num_cmp (RPos n) (RFlt x) = Some Eq \/ num_cmp (RFlt x) (RPos n) = Some Eq) /\
               (num_cmp (RNeg z) (RFlt x) = Some Eq \/ num_cmp (RFlt x) (RNeg z) = Some Eq)) ->
    wf_raw (RPos n) = true -> False) as Key.
  { intros n z Wz H Wn.
    assert (z < 0)%Z as Hz by (cbn in Wz; lia).
    destruct H as [H|[H|(x & H1 & H2)]].
    - rewrite num_cmp_int in H by auto. injection H as H. apply Z.compare_eq in H. cbn in H. lia.
    - rewrite num_cmp_int in H by auto. injection H as H. apply Z.compare_eq in H. cbn in H. lia.
    - rewrite !num_cmp_flt in H1, H2 by reflexivity.
      assert (as_f64 (RPos n) = as_f64 (RFlt x)) as F1.
      { destruct H1 as [H1|H1]; apply some_eq in H1; apply Z.compare_eq in H1; [exact H1|exact (eq_sym H1)]. }
      assert (as_f64 (RNeg z) = as_f64 (RFlt x)) as F2.
      { destruct H2 as [H2|H2]; apply some_eq in H2; apply Z.compare_eq in H2; [exact H2|exact (eq_sym H2)]. }
      rewrite <- F2 in F1. cbn [as_f64] in F1.
      apply Z.mul_reg_r in F1; [|pose proof scale_pos; lia].
      pose proof (proj1 (z_as_f64_sign (Z.of_N n)) ltac:(lia)).
      pose proof (proj2 (z_as_f64_sign z) Hz). lia. }
  destruct a as [| |n|z|x| | |]; try discriminate; destruct b as [| |m|y|w| | |]; try discriminate;
    destruct c as [| |n'|z'|x'| | |]; try discriminate; cbn in K1, K2, K3; try congruence.
  - eapply (Key n y); eauto.
  - eapply (Key n z'); eauto 8.
  - eapply (Key m z); eauto.
  - eapply (Key n' z); eauto 8.
  - eapply (Key m z'); eauto.
  - eapply (Key n' y); eauto.
Qed.

Lemma Forall2_flat_map_length {A B} (f : A -> list B) l l' :
  Forall2 (fun x y => length (f x) = length (f y)) l l' -> length (flat_map f l) = length (flat_map f l').
Proof. induction 1 as [|x y l l' H _ IH]; cbn; [reflexivity|]. rewrite !app_length. lia. Qed.

Lemma Forall2_impl_In {A B} (P Q : A -> B -> Prop) l l' :
  (forall x y, In x l -> In y l' -> P x y -> Q x y) -> Forall2 P l l' -> Forall2 Q l l'.
Proof.
  intros H F. revert H. induction F as [|x y l l' Hp F IH]; intros H; constructor.
  - apply H; auto; now left.
  - apply IH. intros a b Ha Hb. apply H; now right.
Qed.

Definition kv_stream (kv : list byte * raw) : list byte := hash_str (fst kv) ++ stream (snd kv).
Lemma stream_obj l : stream (RObj l) = x05 :: flat_map kv_stream l.
Proof. reflexivity. Qed.

Lemma pair_pcmp_eq p q : pair_pcmp p q = Some Eq <-> fst p = fst q /\ pcmp (snd p) (snd q) = Some Eq.
Proof.
  unfold pair_pcmp. destruct (cmp (fst p) (fst q)) eqn:E.
  - apply cmp_eq in E. tauto.
  - split; [discriminate|]. intros [H _]. rewrite H, cmp_refl in E. discriminate.
  - split; [discriminate|]. intros [H _]. rewrite H, cmp_refl in E. discriminate.
Qed.

Lemma stream_length a : forall b, pcmp a b = Some Eq -> length (stream a) = length (stream b).
Proof.
  induction a as [|x|n|z|x|s|l IH|l IH] using raw_nested_ind; intros b H; destruct b as [|y|m|w|y|t|l'|l']; try discriminate.
  - reflexivity.
  - reflexivity.
  - reflexivity.
  - reflexivity.
  - reflexivity.
  - reflexivity.
  - reflexivity.
  - reflexivity.
  - reflexivity.
  - reflexivity.
  - reflexivity.
  - change (Some (cmp s t) = Some Eq) in H. apply some_eq in H. apply (@cmp_eq (list byte) _) in H. now subst.
  - rewrite pcmp_arr in H. apply by_eq in H. cbn [stream length]. f_equal. apply Forall2_flat_map_length.
    rewrite Forall_forall in IH. eapply Forall2_impl_In; [|exact H]. intros x y Hx _. now apply IH.
  - rewrite pcmp_obj in H. apply by_eq in H. rewrite !stream_obj. cbn [length]. f_equal. apply Forall2_flat_map_length.
    rewrite Forall_forall in IH. eapply Forall2_impl_In; [|exact H].
    intros x y Hx _ E. apply pair_pcmp_eq in E as [E1 E2]. unfold kv_stream. rewrite !app_length, E1.
    f_equal. now apply IH.
Qed.

Lemma app_eq_len {A} (a b c d : list A) : length a = length c -> a ++ b = c ++ d -> a = c /\ b = d.
Proof.
  revert c. induction a as [|x a IH]; intros [|y c]; cbn; try discriminate; [auto|].
  intros H E. injection H as H. injection E as -> E. destruct (IH _ H E). subst. auto.
Qed.

(** Elementwise splitting of concatenated codes of equal lengths. *)
Lemma flat_map_split {A B} (f : A -> list B) l l' :
  Forall2 (fun x y => length (f x) = length (f y)) l l' ->
  flat_map f l = flat_map f l' -> Forall2 (fun x y => f x = f y) l l'.
Proof.
  induction 1 as [|x y l l' H F IH]; cbn; intros E; constructor.
  - now apply app_eq_len in E.
  - apply app_eq_len in E as [_ E]; auto.
Qed.

Lemma Forall2_and {A B} (P Q : A -> B -> Prop) l l' : Forall2 P l l' -> Forall2 Q l l' -> Forall2 (fun x y => P x y /\ Q x y) l l'.
Proof. intros H. induction H as [|x y l l' Hp F IH]; intros HQ; inversion HQ; subst; constructor; auto. Qed.

Lemma Forall2_compose {A} (P Q R : A -> A -> Prop) l1 : forall l2 l3,
  (forall x y z, In x l1 -> In y l2 -> In z l3 -> P x y -> Q y z -> R x z) ->
  Forall2 P l1 l2 -> Forall2 Q l2 l3 -> Forall2 R l1 l3.
Proof.
  induction l1 as [|x l1 IH]; intros l2 l3 H F1 F2; inversion F1; subst; inversion F2; subst; constructor.
  - eapply H; eauto; now left.
  - eapply IH; eauto. intros a b c Ha Hb Hc. apply H; now right.
Qed.

Lemma key_trans_raw a : forall b c,
  wf_raw a = true -> wf_raw b = true -> wf_raw c = true ->
  pcmp a b = Some Eq -> pcmp b c = Some Eq -> stream a = stream b -> stream b = stream c ->
  pcmp a c = Some Eq.
Proof.
  assert (forall a b c, is_num a = true -> is_num b = true -> is_num c = true ->
    wf_raw a = true -> wf_raw b = true -> wf_raw c = true ->
    pcmp a b = Some Eq -> pcmp b c = Some Eq -> stream a = stream b -> stream b = stream c ->
    pcmp a c = Some Eq) as Hnum.
  { intros x y z Ix Iy Iz Wx Wy Wz. rewrite !pcmp_nums by assumption. intros E1 E2 S1 S2.
    apply (@num_trans x y z); auto; now apply same_pattern. }
  induction a as [|x|n|z|x|s|l IH|l IH] using raw_nested_ind; intros b c Wa Wb Wc E1 E2 S1 S2.
  - destruct b; try discriminate E1. destruct c; try discriminate E2. reflexivity.
  - destruct b as [|y| | | | | |]; try discriminate E1. destruct c as [|w| | | | | |]; try discriminate E2.
    destruct x, y, w; try discriminate E1; try discriminate E2; reflexivity.
  - destruct b; try discriminate E1; destruct c; try discriminate E2;
      refine (Hnum _ _ _ _ _ _ _ _ _ E1 E2 S1 S2); auto.
  - destruct b; try discriminate E1; destruct c; try discriminate E2;
      refine (Hnum _ _ _ _ _ _ _ _ _ E1 E2 S1 S2); auto.
  - destruct b; try discriminate E1; destruct c; try discriminate E2;
      refine (Hnum _ _ _ _ _ _ _ _ _ E1 E2 S1 S2); auto.
  - destruct b as [| | | | |t| |]; try discriminate E1. destruct c as [| | | | |u| |]; try discriminate E2.
    change (Some (cmp s t) = Some Eq) in E1. apply some_eq in E1. apply (@cmp_eq (list byte) _) in E1. now subst.
  - destruct b as [| | | | | |l2|]; try discriminate E1. destruct c as [| | | | | |l3|]; try discriminate E2.
    rewrite pcmp_arr in *. apply by_eq in E1, E2. apply by_eq.
    cbn [stream] in S1, S2. injection S1 as S1. injection S2 as S2.
    apply flat_map_split in S1; [|eapply Forall2_impl_In; [|exact E1]; intros; now apply stream_length].
    apply flat_map_split in S2; [|eapply Forall2_impl_In; [|exact E2]; intros; now apply stream_length].
    pose proof (Forall2_and E1 S1) as F1. pose proof (Forall2_and E2 S2) as F2.
    rewrite Forall_forall in IH. cbn in Wa, Wb, Wc.
    eapply Forall2_compose; [|exact F1|exact F2]. cbn beta.
    intros x y z Hx Hy Hz [A1 B1] [A2 B2].
    pose proof (forallb_forall_In _ _ _ Wa Hx). pose proof (forallb_forall_In _ _ _ Wb Hy).
    pose proof (forallb_forall_In _ _ _ Wc Hz). apply (IH x Hx y z); auto.
  - destruct b as [| | | | | | |l2]; try discriminate E1. destruct c as [| | | | | | |l3]; try discriminate E2.
    rewrite pcmp_obj in *. apply by_eq in E1, E2. apply by_eq.
    rewrite !stream_obj in S1, S2. injection S1 as S1. injection S2 as S2.
    assert (forall p q, pair_pcmp p q = Some Eq -> length (kv_stream p) = length (kv_stream q)) as HL.
    { intros p q E. apply pair_pcmp_eq in E as [Ek Ev]. unfold kv_stream. rewrite !app_length, Ek.
      f_equal. now apply stream_length. }
    apply flat_map_split in S1; [|eapply Forall2_impl_In; [|exact E1]; intros; now apply HL].
    apply flat_map_split in S2; [|eapply Forall2_impl_In; [|exact E2]; intros; now apply HL].
    pose proof (Forall2_and E1 S1) as F1. pose proof (Forall2_and E2 S2) as F2.
    rewrite Forall_forall in IH. cbn [wf_raw] in Wa, Wb, Wc.
    apply andb_true_iff in Wa as [_ Wa]. apply andb_true_iff in Wb as [_ Wb]. apply andb_true_iff in Wc as [_ Wc].
    eapply Forall2_compose; [|exact F1|exact F2]. cbn beta.
    intros x y z Hx Hy Hz [A1 B1] [A2 B2].
    pose proof (forallb_forall_In _ _ _ Wa Hx) as Vx. pose proof (forallb_forall_In _ _ _ Wb Hy) as Vy.
    pose proof (forallb_forall_In _ _ _ Wc Hz) as Vz. cbn beta in Vx, Vy, Vz.
    apply andb_true_iff in Vx as [_ Vx]. apply andb_true_iff in Vy as [_ Vy]. apply andb_true_iff in Vz as [_ Vz].
    apply pair_pcmp_eq in A1 as [K1 A1]. apply pair_pcmp_eq in A2 as [K2 A2]. apply pair_pcmp_eq.
    split; [congruence|]. unfold kv_stream in B1, B2. rewrite K1 in B1. rewrite K2 in B2.
    apply app_inv_head in B1. apply app_inv_head in B2. apply (IH x Hx (snd y) (snd z)); auto.
Qed.

(** ** [HashMap] key matching is an equivalence *)

Lemma jraw_wf (v : json) : wf_raw (jraw v) = true.
Proof. exact (proj2_sig v). Qed.

Lemma json_eq_iff a b : json_eq a b = true <-> pcmp (jraw a) (jraw b) = Some Eq.
Proof.
  unfold json_eq, raw_eq. destruct (pcmp _ _) as [[]|]; split; try discriminate; auto.
Qed.

Lemma json_eq_refl v : json_eq v v = true.
Proof. apply json_eq_iff, pcmp_refl, jraw_wf. Qed.
Lemma json_eq_sym a b : json_eq a b = json_eq b a.
Proof.
  apply eq_true_iff_eq. rewrite !json_eq_iff.
  rewrite (pcmp_sym (jraw a) (jraw b) (jraw_wf a) (jraw_wf b)).
  destruct (pcmp (jraw a) (jraw b)) as [[]|]; cbn; split; intros H; inversion H; auto.
Qed.

Lemma key_eq_iff a b : key_eq a b = true <-> json_eq a b = true /\ json_stream a = json_stream b.
Proof. unfold key_eq. now rewrite andb_true_iff, eqb_eq. Qed.
Lemma key_eq_refl v : key_eq v v = true.
Proof. apply key_eq_iff. split; [apply json_eq_refl|reflexivity]. Qed.
Lemma key_eq_sym a b : key_eq a b = key_eq b a.
Proof. unfold key_eq. now rewrite json_eq_sym, eqb_sym. Qed.
Lemma key_eq_trans a b c : key_eq a b = true -> key_eq b c = true -> key_eq a c = true.
Proof.
  rewrite !key_eq_iff. intros [E1 S1] [E2 S2]. split; [|congruence].
  apply json_eq_iff in E1, E2. apply json_eq_iff.
  eapply key_trans_raw; eauto using jraw_wf.
Qed.

(** ** Values without floats: equality is identity *)

Definition no_floats : raw -> bool := nums is_int.

Lemma no_floats_eq a : forall b, wf_raw a = true -> wf_raw b = true ->
  no_floats a = true -> no_floats b = true -> pcmp a b = Some Eq -> a = b.
Proof.
  unfold no_floats.
  induction a as [|x|n|z|x|s|l IH|l IH] using raw_nested_ind; intros b Wa Wb Na Nb E;
    destruct b as [|y|m|w|y|t|l'|l']; try discriminate E; try discriminate Na; try discriminate Nb; auto.
  - destruct x, y; try discriminate E; reflexivity.
  - rewrite pcmp_nums, num_cmp_int in E by auto. injection E as E. apply Z.compare_eq in E. cbn in E. f_equal. lia.
  - rewrite pcmp_nums, num_cmp_int in E by auto. injection E as E. apply Z.compare_eq in E. cbn in E, Wb. lia.
  - rewrite pcmp_nums, num_cmp_int in E by auto. injection E as E. apply Z.compare_eq in E. cbn in E, Wa. lia.
  - rewrite pcmp_nums, num_cmp_int in E by auto. injection E as E. apply Z.compare_eq in E. cbn in E. now f_equal.
  - change (Some (cmp s t) = Some Eq) in E. apply some_eq in E. apply (@cmp_eq (list byte) _) in E. now subst.
  - rewrite pcmp_arr in E. apply by_eq in E. f_equal. rewrite Forall_forall in IH. cbn in *.
    assert (Forall2 eq l l') as F.
    { eapply Forall2_impl_In; [|exact E]. cbn beta. intros x y Hx Hy Exy.
      pose proof (forallb_forall_In _ _ _ Wa Hx). pose proof (forallb_forall_In _ _ _ Wb Hy).
      pose proof (forallb_forall_In _ _ _ Na Hx). pose proof (forallb_forall_In _ _ _ Nb Hy).
      apply IH; auto. }
    clear - F. induction F; congruence.
  - rewrite pcmp_obj in E. apply by_eq in E. f_equal. rewrite Forall_forall in IH. cbn in *.
    apply andb_true_iff in Wa as [_ Wa]. apply andb_true_iff in Wb as [_ Wb].
    assert (Forall2 eq l l') as F.
    { eapply Forall2_impl_In; [|exact E]. cbn beta. intros x y Hx Hy Exy.
      apply pair_pcmp_eq in Exy as [Ek Ev].
      pose proof (forallb_forall_In _ _ _ Wa Hx) as Vx. pose proof (forallb_forall_In _ _ _ Wb Hy) as Vy.
      pose proof (forallb_forall_In _ _ _ Na Hx) as Ux. pose proof (forallb_forall_In _ _ _ Nb Hy) as Uy.
      cbn beta in *. apply andb_true_iff in Vx as [_ Vx]. apply andb_true_iff in Vy as [_ Vy].
      destruct x as [kx vx], y as [ky vy]. cbn [fst snd] in *. subst. f_equal. apply (IH (ky, vx) Hx); auto. }
    clear - F. induction F; congruence.
Qed.

(** ** Flat values have unambiguous hash streams *)

Lemma cont_ff b : cont (bN b) = true -> b <> xff.
Proof. intros H ->. vm_compute in H. discriminate. Qed.

Lemma utf8_no_ff_len : forall n l, length l <= n -> utf8_valid l = true -> ~ In xff l.
Proof.
  unfold utf8_valid.
  induction n as [|n IH]; intros l Hl.
  - destruct l; cbn in Hl; [auto|lia].
  - destruct l as [|b0 l1]; [auto|]. cbn [length] in Hl. cbn [utf8_chars].
    destruct (N.ltb_spec (bN b0) 128) as [L0|L0].
    { intros H. assert (~ In xff l1) as N1.
      { apply IH; [lia|]. destruct (utf8_chars l1) eqn:U; [reflexivity|]; cbn in H; congruence. }
      intros [->|Hin]; [|auto]. change (bN xff) with 255%N in L0. lia. }
    destruct l1 as [|b1 l2]; [discriminate|]. cbn [length] in Hl.
    destruct ((194 <=? bN b0) && (bN b0 <=? 223) && cont (bN b1))%N eqn:C1.
    { intros H. assert (~ In xff l2) as N1.
      { apply IH; [lia|]. destruct (utf8_chars l2) eqn:U; [reflexivity|]; cbn in H; congruence. }
      apply andb_true_iff in C1 as [C0 C1]. apply cont_ff in C1.
      intros [->|[->|Hin]]; auto. vm_compute in C0. discriminate. }
    destruct l2 as [|b2 l3]; [discriminate|]. cbn [length] in Hl.
    match goal with |- context [if ?c && ?d then _ else _] => destruct (c && d) eqn:C2 end.
    { intros H. assert (~ In xff l3) as N1.
      { apply IH; [lia|]. destruct (utf8_chars l3) eqn:U; [reflexivity|]; cbn in H; congruence. }
      apply andb_true_iff in C2 as [C0 C2]. apply cont_ff in C2.
      assert (b0 <> xff) by (intros ->; change (bN xff) with 255%N in C0; lia).
      assert (b1 <> xff) by (intros ->; unfold cont in C0; change (bN xff) with 255%N in C0; lia).
      intros [->|[->|[->|Hin]]]; auto. }
    destruct l3 as [|b3 l4]; [discriminate|]. cbn [length] in Hl.
    match goal with |- context [if ?c && ?d then _ else _] => destruct (c && d) eqn:C3 end; [|discriminate].
    intros H. assert (~ In xff l4) as N1.
    { apply IH; [lia|]. destruct (utf8_chars l4) eqn:U; [reflexivity|]; cbn in H; congruence. }
    apply andb_true_iff in C3 as [C0 C3]. apply cont_ff in C3.
    apply andb_true_iff in C0 as [C0 C2']. apply cont_ff in C2'.
    assert (b0 <> xff) by (intros ->; change (bN xff) with 255%N in C0; lia).
    assert (b1 <> xff) by (intros ->; unfold cont in C0; change (bN xff) with 255%N in C0; lia).
    intros [->|[->|[->|[->|Hin]]]]; auto.
Qed.
Lemma utf8_no_ff l : utf8_valid l = true -> ~ In xff l.
Proof. eapply utf8_no_ff_len, le_n. Qed.

Lemma hash_str_prefix_free s : forall s' r r', utf8_valid s = true -> utf8_valid s' = true ->
  hash_str s ++ r = hash_str s' ++ r' -> s = s' /\ r = r'.
Proof.
  intros s' r r' H H'. apply utf8_no_ff in H, H'. unfold hash_str. rewrite <- !app_assoc. cbn [app].
  revert s' H'. induction s as [|b s IH]; intros [|b' s'] H'; cbn.
  - intros E. injection E as E. auto.
  - intros E. injection E as E _. exfalso. apply H'. now left.
  - intros E. injection E as E _. exfalso. apply H. now left.
  - intros E. injection E as -> E. cbn in H, H'. destruct (IH ltac:(tauto) s' ltac:(tauto) E) as [-> ->]. auto.
Qed.

(** Null, booleans, strings and integers in the range of [i64]. *)
Definition scalar (v : raw) : bool :=
  match v with
  | RNull | RBool _ | RStr _ | RNeg _ => true
  | RPos n => (n <=? 2 ^ 63 - 1)%N
  | _ => false
  end.
(** Scalars, and arrays and objects of scalars. *)
Definition flat (v : raw) : bool :=
  match v with
  | RArr l => forallb scalar l
  | RObj l => forallb (fun kv => scalar (snd kv)) l
  | _ => scalar v
  end.

Lemma scalar_num_inj a b : wf_raw a = true -> wf_raw b = true -> is_num a = true -> is_num b = true ->
  scalar a = true -> scalar b = true -> pattern_of a = pattern_of b -> a = b.
Proof.
  intros Wa Wb Ia Ib Sa Sb E.
  assert (forall n z, wf_raw (RNeg z) = true -> scalar (RPos n) = true -> pattern_of (RPos n) = pattern_of (RNeg z) -> False) as Key.
  { intros n z Wz Sn En. cbn [wf_raw scalar pattern_of] in *. unfold u64_of_z in En.
    assert (z mod 2 ^ 64 = z + 2 ^ 64)%Z as Ez.
    { symmetry. apply Z.mod_unique with (q := (-1)%Z); lia. }
    rewrite Ez in En. lia. }
  destruct (Nat.eq_dec (kind_of a) (kind_of b)) as [K|K]; [now apply kind_pattern|exfalso].
  destruct a as [| |n|z|x| | |]; try discriminate; destruct b as [| |m|y|w| | |]; try discriminate;
    try (exfalso; apply K; reflexivity).
  - exact (Key n y Wb Sa E).
  - exact (Key m z Wa Sb (eq_sym E)).
Qed.

Lemma scalar_prefix_free a b r r' : wf_raw a = true -> wf_raw b = true -> scalar a = true -> scalar b = true ->
  stream a ++ r = stream b ++ r' -> a = b /\ r = r'.
Proof.
  intros Wa Wb Sa Sb.
  assert (forall a b, wf_raw a = true -> wf_raw b = true -> scalar a = true -> scalar b = true ->
    is_num a = true -> is_num b = true -> stream a ++ r = stream b ++ r' -> a = b /\ r = r') as Hn.
  { intros x y Wx Wy Sx Sy Ix Iy E. rewrite !stream_num in E by assumption. cbn [app] in E.
    apply (f_equal (@tl byte)) in E. cbn [tl] in E.
    apply app_eq_len in E as [E1 E2]; [|now rewrite !le64_length].
    split; [|assumption]. apply scalar_num_inj; auto. apply le64_inj; auto; now apply pattern_bound. }
  destruct a as [|x|n|z|x|s| |]; try discriminate Sa; destruct b as [|y|m|w|y|t| |]; try discriminate Sb;
    try (apply Hn; auto; fail); intros E; try discriminate E.
  - injection E as E. auto.
  - injection E as E1 E2. destruct x, y; try discriminate E1; auto.
  - cbn [stream app] in E. apply (f_equal (@tl byte)) in E. cbn [tl] in E.
    apply hash_str_prefix_free in E as [-> ->]; auto.
Qed.

Lemma flat_map_scalars l : forall l', forallb wf_raw l = true -> forallb wf_raw l' = true ->
  forallb scalar l = true -> forallb scalar l' = true ->
  flat_map stream l = flat_map stream l' -> l = l'.
Proof.
  induction l as [|a l IH]; intros [|b l'] W W' S S' E.
  - reflexivity.
  - cbn in E. destruct b; cbn in S'; discriminate.
  - cbn in E. destruct a; cbn in S; discriminate.
  - cbn [forallb flat_map] in *. apply andb_true_iff in W as [W1 W2]. apply andb_true_iff in W' as [W1' W2'].
    apply andb_true_iff in S as [S1 S2]. apply andb_true_iff in S' as [S1' S2'].
    apply scalar_prefix_free in E as [-> E]; auto. f_equal. auto.
Qed.

Lemma flat_map_fields l : forall l',
  forallb (fun kv => utf8_valid (fst kv) && wf_raw (snd kv)) l = true ->
  forallb (fun kv => utf8_valid (fst kv) && wf_raw (snd kv)) l' = true ->
  forallb (fun kv => scalar (snd kv)) l = true -> forallb (fun kv => scalar (snd kv)) l' = true ->
  flat_map kv_stream l = flat_map kv_stream l' -> l = l'.
Proof.
  assert (forall kv r, kv_stream kv ++ r <> []) as NE.
  { intros [k v] r. unfold kv_stream, hash_str. cbn. destruct k; discriminate. }
  induction l as [|[k v] l IH]; intros [|[k' v'] l'] W W' S S' E.
  - reflexivity.
  - exfalso. cbn [flat_map] in E. symmetry in E. eapply NE, E.
  - exfalso. cbn [flat_map] in E. eapply NE, E.
  - cbn [forallb flat_map fst snd] in *. apply andb_true_iff in W as [W1 W2]. apply andb_true_iff in W' as [W1' W2'].
    apply andb_true_iff in S as [S1 S2]. apply andb_true_iff in S' as [S1' S2'].
    apply andb_true_iff in W1 as [U1 W1]. apply andb_true_iff in W1' as [U1' W1'].
    unfold kv_stream in E at 1 3. cbn [fst snd] in E. rewrite <- !app_assoc in E.
    apply hash_str_prefix_free in E as [-> E]; auto.
    apply scalar_prefix_free in E as [-> E]; auto. f_equal. auto.
Qed.

Lemma flat_stream_inj a b : wf_raw a = true -> wf_raw b = true -> flat a = true -> flat b = true ->
  stream a = stream b -> a = b.
Proof.
  intros Wa Wb Fa Fb E.
  assert (scalar a = true -> scalar b = true -> a = b) as Hs.
  { intros Sa Sb. apply (f_equal (fun l => l ++ [])) in E. apply scalar_prefix_free in E as [E _]; auto. }
  destruct a as [|x|n|z|x|s|l|l]; try discriminate Fa; destruct b as [|y|m|w|y|t|l'|l']; try discriminate Fb;
    try (apply Hs; auto; fail); try discriminate E.
  - apply (f_equal (@tl byte)) in E. cbn [tl stream] in E. f_equal. apply flat_map_scalars; auto.
  - rewrite !stream_obj in E. apply (f_equal (@tl byte)) in E. cbn [tl] in E. f_equal.
    cbn [wf_raw] in Wa, Wb. apply andb_true_iff in Wa as [_ Wa]. apply andb_true_iff in Wb as [_ Wb].
    apply flat_map_fields; auto.
Qed.
