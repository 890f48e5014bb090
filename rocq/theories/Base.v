(** * Base definitions shared by the whole model.

    Bytes, total orders, UTF-8, outcomes of Rust calls and small list
    functions that correspond to the iterator adaptors used by the code. *)
From Coq Require Export List NArith ZArith Lia Bool.
From Coq Require Import Eqdep_dec.
From Coq Require Export Init.Byte.
From Coq Require Strings.Byte.
From Coq Require Import ZifyBool ZifyNat ZifyN.
From Coq Require Export Permutation Sorted.
Export ListNotations.

Set Implicit Arguments.

(** ** Outcomes of Rust calls *)

(** lib/src/errors.rs 229-241: [ValidationError]. *)
Inductive verr := InvalidValue | ValueTooLong | CannotIncrementUuid | InnerQuery.

(** lib/src/errors.rs 137-160: [Error]; the payloads of [Datastore] and [Io]
    (boxed foreign errors) are dropped. *)
Inductive error :=
| UuidTaken | EDatastore | EIo | NotIndexed | Unsupported | Invalid (v : verr) | OperationOnQuery.

(** A [Result<A>] whose computation may also panic. *)
Inductive outcome (A : Type) := Ok (a : A) | Err (e : error) | Panic.
Arguments Ok {A}. Arguments Err {A}. Arguments Panic {A}.

Definition obind {A B} (x : outcome A) (f : A -> outcome B) : outcome B :=
  match x with Ok a => f a | Err e => Err e | Panic => Panic end.
Notation "'let?' x ':=' e 'in' k" := (obind e (fun x => k))
  (at level 200, x pattern, e at level 100, k at level 200).

Definition omapo {A B} (f : A -> B) (x : outcome A) : outcome B :=
  match x with Ok a => Ok (f a) | Err e => Err e | Panic => Panic end.

Definition of_opt {A} (e : error) (x : option A) : outcome A :=
  match x with Some a => Ok a | None => Err e end.

(** Rust's [iter.collect::<Result<Vec<_>>>()]: stops at the first error. *)
Fixpoint collect {A} (l : list (outcome A)) : outcome (list A) :=
  match l with
  | [] => Ok []
  | x :: r => let? a := x in let? rest := collect r in Ok (a :: rest)
  end.

(** Rust's [Iterator::take] with a [u32]/[usize] bound. *)
Fixpoint takeN {A} (n : N) (l : list A) : list A :=
  match l with
  | [] => []
  | x :: r => if N.eqb n 0 then [] else x :: takeN (N.pred n) r
  end.

(** Rust's [Iterator::take_while]. *)
Fixpoint take_while {A} (p : A -> bool) (l : list A) : list A :=
  match l with
  | [] => []
  | x :: r => if p x then x :: take_while p r else []
  end.

(** Rust's [Iterator::skip_while]; used for [range(x..)] on sorted lists. *)
Fixpoint skip_while {A} (p : A -> bool) (l : list A) : list A :=
  match l with
  | [] => []
  | x :: r => if p x then skip_while p r else l
  end.

(** Rust's [Iterator::filter_map]. *)
Fixpoint filter_map {A B} (f : A -> option B) (l : list A) : list B :=
  match l with
  | [] => []
  | x :: r => match f x with Some y => y :: filter_map f r | None => filter_map f r end
  end.

Definition lenN {A} (l : list A) : N := N.of_nat (length l).

(** ** Total orders *)

Class Ord (A : Type) := {
  cmp : A -> A -> comparison;
  cmp_eq : forall x y, cmp x y = Eq <-> x = y;
  cmp_antisym : forall x y, cmp y x = CompOpp (cmp x y);
  cmp_lt_trans : forall x y z, cmp x y = Lt -> cmp y z = Lt -> cmp x z = Lt }.

Definition ltb {A} {O : Ord A} (x y : A) : bool :=
  match cmp x y with Lt => true | _ => false end.
Definition eqb {A} {O : Ord A} (x y : A) : bool :=
  match cmp x y with Eq => true | _ => false end.
Definition lt {A} {O : Ord A} (x y : A) : Prop := cmp x y = Lt.

#[global] Program Instance Ord_N : Ord N := { cmp := N.compare }.
Next Obligation. split; [apply N.compare_eq|intros ->; apply N.compare_refl]. Qed.
Next Obligation. apply N.compare_antisym. Qed.
Next Obligation. rewrite N.compare_lt_iff in *; lia. Qed.

Definition bN (b : byte) : N := Byte.to_N b.

Lemma bN_inj a b : bN a = bN b -> a = b.
Proof.
  intros H. pose proof (Byte.of_to_N a) as Ha. pose proof (Byte.of_to_N b) as Hb.
  unfold bN in H. rewrite H in Ha. rewrite Ha in Hb. now inversion Hb.
Qed.

Lemma bN_bound b : (bN b < 256)%N.
Proof. destruct b; vm_compute; reflexivity. Qed.

(** [n as u8] *)
Definition byte_of (n : N) : byte :=
  match Byte.of_N (n mod 256) with Some b => b | None => x00 end.

Lemma bN_byte_of n : bN (byte_of n) = (n mod 256)%N.
Proof.
  unfold byte_of, bN.
  destruct (Byte.of_N (n mod 256)) eqn:E.
  - now apply Byte.to_of_N in E.
  - apply Byte.of_N_None_iff in E.
    pose proof (N.mod_upper_bound n 256 ltac:(discriminate)). lia.
Qed.

Lemma byte_of_bN b : byte_of (bN b) = b.
Proof.
  apply bN_inj. rewrite bN_byte_of. apply N.mod_small. apply bN_bound.
Qed.

#[global] Program Instance Ord_byte : Ord byte := { cmp := fun a b => N.compare (bN a) (bN b) }.
Next Obligation.
  split; [intros H; apply N.compare_eq in H; now apply bN_inj|intros ->; apply N.compare_refl].
Qed.
Next Obligation. apply N.compare_antisym. Qed.
Next Obligation. rewrite N.compare_lt_iff in *; lia. Qed.

(** Lexicographic order on sequences ([Ord] of slices, strings and [Vec<u8>]). *)
Fixpoint list_cmp {A} {O : Ord A} (x y : list A) : comparison :=
  match x, y with
  | [], [] => Eq
  | [], _ :: _ => Lt
  | _ :: _, [] => Gt
  | a :: x', b :: y' => match cmp a b with Eq => list_cmp x' y' | c => c end
  end.

Lemma cmp_refl {A} {O : Ord A} (x : A) : cmp x x = Eq.
Proof. now apply cmp_eq. Qed.

#[global] Program Instance Ord_list {A} {O : Ord A} : Ord (list A) := { cmp := list_cmp }.
Next Obligation.
  revert y; induction x as [|a x IH]; intros [|b y]; cbn; split; try easy.
  - destruct (cmp a b) eqn:E; try discriminate. apply cmp_eq in E. subst.
    intros H. apply IH in H. now subst.
  - intros H; inversion H; subst. rewrite cmp_refl. now apply IH.
Qed.
Next Obligation.
  revert y; induction x as [|a x IH]; intros [|b y]; cbn; try easy.
  rewrite (cmp_antisym a b). destruct (cmp a b) eqn:E; cbn; auto.
Qed.
Next Obligation.
  revert y z H H0; induction x as [|a x IH]; intros [|b y] [|c z]; cbn; try easy.
  destruct (cmp a b) eqn:E1; destruct (cmp b c) eqn:E2; try discriminate; intros H1 H2.
  - apply cmp_eq in E1; apply cmp_eq in E2; subst. rewrite cmp_refl. eauto.
  - apply cmp_eq in E1; subst. now rewrite E2.
  - apply cmp_eq in E2; subst. now rewrite E1.
  - now rewrite (cmp_lt_trans a b c E1 E2).
Qed.

(** Lexicographic order on pairs (Rust tuples). *)
Definition pair_cmp {A B} {OA : Ord A} {OB : Ord B} (x y : A * B) : comparison :=
  match cmp (fst x) (fst y) with Eq => cmp (snd x) (snd y) | c => c end.

Section PairOrd.
  Context {A B : Type} {OA : Ord A} {OB : Ord B}.
  Lemma pair_cmp_eq (x y : A * B) : pair_cmp x y = Eq <-> x = y.
  Proof.
    destruct x as [a b], y as [c d]. unfold pair_cmp; cbn; split; intros H.
    - destruct (cmp a c) eqn:E; try discriminate. apply cmp_eq in E; apply cmp_eq in H. now subst.
    - inversion H; subst. rewrite !cmp_refl. reflexivity.
  Qed.
  Lemma pair_cmp_antisym (x y : A * B) : pair_cmp y x = CompOpp (pair_cmp x y).
  Proof.
    destruct x as [a b], y as [c d]. unfold pair_cmp; cbn.
    rewrite (cmp_antisym a c), (cmp_antisym b d). destruct (cmp a c); cbn; auto.
  Qed.
  Lemma pair_cmp_trans (x y z : A * B) : pair_cmp x y = Lt -> pair_cmp y z = Lt -> pair_cmp x z = Lt.
  Proof.
    destruct x as [a b], y as [c d], z as [e f]. unfold pair_cmp; cbn.
    destruct (cmp a c) eqn:E1; destruct (cmp c e) eqn:E2; try discriminate; intros H1 H2.
    - apply cmp_eq in E1; apply cmp_eq in E2; subst. rewrite cmp_refl. eapply cmp_lt_trans; eauto.
    - apply cmp_eq in E1; subst. now rewrite E2.
    - apply cmp_eq in E2; subst. now rewrite E1.
    - now rewrite (cmp_lt_trans _ _ _ E1 E2).
  Qed.
End PairOrd.
#[global] Instance Ord_pair {A B} {OA : Ord A} {OB : Ord B} : Ord (A * B) :=
  {| cmp := pair_cmp; cmp_eq := pair_cmp_eq; cmp_antisym := pair_cmp_antisym;
     cmp_lt_trans := pair_cmp_trans |}.

(** Pull an order back along an injection. *)
Program Definition Ord_inj {A B} {O : Ord B} (f : A -> B)
  (inj : forall x y, f x = f y -> x = y) : Ord A :=
  {| cmp := fun x y => cmp (f x) (f y) |}.
Next Obligation. rewrite cmp_eq; split; [apply inj|now intros ->]. Qed.
Next Obligation. apply cmp_antisym. Qed.
Next Obligation. eapply cmp_lt_trans; eauto. Qed.

(** Subsets given by a boolean check are extensional (no axiom needed:
    equality on [bool] is decidable). *)
Definition bsub {A} (p : A -> bool) := { x : A | p x = true }.
Lemma bsub_eq {A} {p : A -> bool} (x y : bsub p) : proj1_sig x = proj1_sig y -> x = y.
Proof.
  destruct x as [x Hx], y as [y Hy]; cbn; intros ->.
  f_equal. apply UIP_dec. apply bool_dec.
Qed.

Section OrdFacts.
  Context {A : Type} {O : Ord A}.
  Lemma eqb_eq (x y : A) : eqb x y = true <-> x = y.
  Proof.
    unfold eqb. destruct (cmp x y) eqn:E; split; try easy; intros H.
    - now apply cmp_eq.
    - subst. rewrite cmp_refl in E. discriminate.
    - subst. rewrite cmp_refl in E. discriminate.
  Qed.
  Lemma eqb_refl (x : A) : eqb x x = true.
  Proof. now apply eqb_eq. Qed.
  Lemma eqb_neq (x y : A) : eqb x y = false <-> x <> y.
  Proof.
    split; intros H.
    - intros E. apply eqb_eq in E. congruence.
    - destruct (eqb x y) eqn:E; auto. apply eqb_eq in E. contradiction.
  Qed.
  Lemma eqb_sym (x y : A) : eqb x y = eqb y x.
  Proof. unfold eqb. rewrite (cmp_antisym x y). now destruct (cmp x y). Qed.
  Lemma eq_dec (x y : A) : {x = y} + {x <> y}.
  Proof.
    destruct (eqb x y) eqn:E; [left|right].
    - now apply eqb_eq.
    - now apply eqb_neq.
  Defined.
  Lemma lt_irrefl (x : A) : ~ lt x x.
  Proof. unfold lt. rewrite cmp_refl. discriminate. Qed.
  Lemma lt_trans (x y z : A) : lt x y -> lt y z -> lt x z.
  Proof. apply cmp_lt_trans. Qed.
  Lemma gt_lt (x y : A) : cmp x y = Gt <-> lt y x.
  Proof.
    unfold lt. rewrite (cmp_antisym x y). destruct (cmp x y); cbn; split; congruence.
  Qed.
  Lemma ltb_lt (x y : A) : ltb x y = true <-> lt x y.
  Proof. unfold ltb, lt. destruct (cmp x y); split; congruence. Qed.
  Lemma ltb_ge (x y : A) : ltb x y = false <-> ~ lt x y.
  Proof. rewrite <- ltb_lt. destruct (ltb x y); split; congruence. Qed.
  Lemma lt_neq (x y : A) : lt x y -> x <> y.
  Proof. intros H ->. now apply lt_irrefl in H. Qed.
  Lemma lt_asym (x y : A) : lt x y -> ~ lt y x.
  Proof. intros H1 H2. eapply lt_irrefl, lt_trans; eauto. Qed.
  Lemma cmp_case (x y : A) : lt x y \/ x = y \/ lt y x.
  Proof.
    destruct (cmp x y) eqn:E.
    - right; left. now apply cmp_eq.
    - now left.
    - right; right. now apply gt_lt.
  Qed.
  Lemma not_lt_le (x y : A) : ~ lt x y -> x = y \/ lt y x.
  Proof. destruct (cmp_case x y) as [H|[H|H]]; tauto. Qed.
End OrdFacts.

(** ** UTF-8 (core::str::from_utf8 / str::chars) *)

Definition cont (n : N) : bool := (128 <=? n)%N && (n <=? 191)%N.

(** Code points of a byte string, or [None] if it is not valid UTF-8
    (Unicode table 3-7, as checked by Rust's [str::from_utf8]). *)
Fixpoint utf8_chars (l : list byte) : option (list N) :=
  match l with
  | [] => Some []
  | b0 :: l1 =>
    let n0 := bN b0 in
    if (n0 <? 128)%N then option_map (cons n0) (utf8_chars l1)
    else match l1 with
    | [] => None
    | b1 :: l2 =>
      let n1 := bN b1 in
      if ((194 <=? n0) && (n0 <=? 223) && cont n1)%N
      then option_map (cons ((n0 - 192) * 64 + (n1 - 128))%N) (utf8_chars l2)
      else match l2 with
      | [] => None
      | b2 :: l3 =>
        let n2 := bN b2 in
        if (((n0 =? 224) && (160 <=? n1) && (n1 <=? 191)
             || (225 <=? n0) && (n0 <=? 236) && cont n1
             || (n0 =? 237) && (128 <=? n1) && (n1 <=? 159)
             || (238 <=? n0) && (n0 <=? 239) && cont n1) && cont n2)%N
        then option_map (cons ((n0 - 224) * 4096 + (n1 - 128) * 64 + (n2 - 128))%N) (utf8_chars l3)
        else match l3 with
        | [] => None
        | b3 :: l4 =>
          let n3 := bN b3 in
          if (((n0 =? 240) && (144 <=? n1) && (n1 <=? 191)
               || (241 <=? n0) && (n0 <=? 243) && cont n1
               || (n0 =? 244) && (128 <=? n1) && (n1 <=? 143)) && cont n2 && cont n3)%N
          then option_map (cons ((n0 - 240) * 262144 + (n1 - 128) * 4096 + (n2 - 128) * 64 + (n3 - 128))%N)
                 (utf8_chars l4)
          else None
        end
      end
    end
  end.

Definition utf8_valid (l : list byte) : bool :=
  match utf8_chars l with Some _ => true | None => false end.

(** ** List facts used everywhere *)

Lemma takeN_firstn {A} n (l : list A) : takeN n l = firstn (N.to_nat n) l.
Proof.
  revert n; induction l as [|x l IH]; intros n; cbn [takeN].
  - now rewrite firstn_nil.
  - destruct (N.eqb_spec n 0) as [->|Hn]; [reflexivity|].
    rewrite IH. replace (N.to_nat n) with (S (N.to_nat (N.pred n))) by lia. reflexivity.
Qed.

Lemma takeN_length {A} n (l : list A) : (lenN (takeN n l) <= n)%N.
Proof. rewrite takeN_firstn. unfold lenN. pose proof (firstn_le_length (N.to_nat n) l). lia. Qed.

Lemma takeN_map {A B} (f : A -> B) n l : takeN n (map f l) = map f (takeN n l).
Proof. now rewrite !takeN_firstn, firstn_map. Qed.

Lemma collect_Ok {A} (l : list A) : collect (map Ok l) = Ok l.
Proof. induction l as [|x l IH]; cbn; [reflexivity|]. now rewrite IH. Qed.

Lemma filter_map_map {A B} (f : A -> B) l : filter_map (fun x => Some (f x)) l = map f l.
Proof. induction l as [|x l IH]; cbn; congruence. Qed.

Lemma in_filter_map {A B} (f : A -> option B) l y :
  In y (filter_map f l) <-> exists x, In x l /\ f x = Some y.
Proof.
  induction l as [|a l IH]; cbn.
  - split; [tauto|]. now intros (? & [] & _).
  - destruct (f a) eqn:E; cbn; rewrite IH; split.
    + intros [->|(x & Hx & Hf)]; eauto.
    + intros (x & [->|Hx] & Hf); [left; congruence|right; eauto].
    + intros (x & Hx & Hf); eauto.
    + intros (x & [->|Hx] & Hf); [congruence|eauto].
Qed.

Lemma take_while_incl {A} (p : A -> bool) l x : In x (take_while p l) -> In x l /\ p x = true.
Proof.
  induction l as [|a l IH]; cbn; [tauto|]. destruct (p a) eqn:E; cbn; [|tauto].
  intros [->|H]; [auto|]. apply IH in H. tauto.
Qed.

(** ** Listings: the unique ascending enumeration of a set *)

(** [listing R P l]: [l] lists exactly the elements satisfying [P], each
    once, in ascending [R]-order. *)
Definition listing {A} (R : A -> A -> Prop) (P : A -> Prop) (l : list A) : Prop :=
  StronglySorted R l /\ forall x, In x l <-> P x.

Lemma sorted_ext {A} (R : A -> A -> Prop) :
  (forall x, ~ R x x) -> (forall x y, R x y -> ~ R y x) ->
  forall l1 l2, StronglySorted R l1 -> StronglySorted R l2 ->
  (forall x, In x l1 <-> In x l2) -> l1 = l2.
Proof.
  intros Hirr Hasym.
  induction l1 as [|a l1 IH]; intros [|b l2] H1 H2 Hin.
  - reflexivity.
  - exfalso. apply (proj2 (Hin b)). now left.
  - exfalso. apply (proj1 (Hin a)). now left.
  - inversion H1 as [|? ? H1' Ha]; subst. inversion H2 as [|? ? H2' Hb]; subst.
    rewrite Forall_forall in Ha, Hb.
    assert (a = b) as ->.
    { destruct (proj1 (Hin a) (or_introl eq_refl)) as [->|Hab]; [reflexivity|].
      destruct (proj2 (Hin b) (or_introl eq_refl)) as [->|Hba]; [reflexivity|].
      exfalso. apply (Hasym _ _ (Ha _ Hba)). now apply Hb. }
    f_equal. apply IH; auto.
    intros x; split; intros Hx.
    + destruct (proj1 (Hin x) (or_intror Hx)) as [->|]; [|assumption].
      exfalso. eapply Hirr. eauto.
    + destruct (proj2 (Hin x) (or_intror Hx)) as [->|]; [|assumption].
      exfalso. eapply Hirr. eauto.
Qed.

Lemma listing_unique {A} (R : A -> A -> Prop) (P : A -> Prop) l1 l2 :
  (forall x, ~ R x x) -> (forall x y, R x y -> ~ R y x) ->
  listing R P l1 -> listing R P l2 -> l1 = l2.
Proof.
  intros H1 H2 [S1 I1] [S2 I2]. eapply sorted_ext; eauto.
  intros x. now rewrite I1, I2.
Qed.

Lemma sorted_filter {A} (R : A -> A -> Prop) (p : A -> bool) l :
  StronglySorted R l -> StronglySorted R (filter p l).
Proof.
  induction 1 as [|a l Hs IH Hf]; cbn; [constructor|].
  destruct (p a); [constructor|]; auto.
  rewrite Forall_forall in *. intros x Hx. apply filter_In in Hx. now apply Hf.
Qed.

Lemma sorted_NoDup {A} (R : A -> A -> Prop) l :
  (forall x, ~ R x x) -> StronglySorted R l -> NoDup l.
Proof.
  intros Hirr. induction 1 as [|a l Hs IH Hf]; constructor; auto.
  intros Hin. rewrite Forall_forall in Hf. eapply Hirr; eauto.
Qed.

(** Membership of a list with decidable elements. *)
Definition inb {A} {O : Ord A} (x : A) (l : list A) : bool := existsb (eqb x) l.

Lemma inb_In {A} {O : Ord A} (x : A) l : inb x l = true <-> In x l.
Proof.
  unfold inb. rewrite existsb_exists. split.
  - intros (y & Hy & E). apply eqb_eq in E. now subst.
  - intros Hx. exists x. split; [assumption|apply eqb_refl].
Qed.
Lemma inb_not_In {A} {O : Ord A} (x : A) l : inb x l = false <-> ~ In x l.
Proof. rewrite <- inb_In. destruct (inb x l); split; congruence. Qed.

(** [keeps P l l']: [l'] is [l] without the elements that do not satisfy [P]. *)
Inductive keeps {A} (P : A -> Prop) : list A -> list A -> Prop :=
| keeps_nil : keeps P [] []
| keeps_yes x l l' : P x -> keeps P l l' -> keeps P (x :: l) (x :: l')
| keeps_no x l l' : ~ P x -> keeps P l l' -> keeps P (x :: l) l'.

Lemma keeps_filter {A} (P : A -> Prop) (p : A -> bool) l :
  (forall x, In x l -> p x = true <-> P x) -> keeps P l (filter p l).
Proof.
  induction l as [|a l IH]; cbn; intros H; [constructor|].
  destruct (p a) eqn:E.
  - apply keeps_yes; [apply H; auto|]. apply IH. auto.
  - apply keeps_no; [|apply IH; auto]. intros Hp. apply H in Hp; [congruence|auto].
Qed.

Lemma keeps_incl {A} (P : A -> Prop) l l' : keeps P l l' -> forall x, In x l' -> In x l /\ P x.
Proof.
  induction 1 as [|x l l' Hp H IH|x l l' Hp H IH]; cbn; intros y Hy; [tauto| |].
  - destruct Hy as [<-|Hy]; [auto|]. apply IH in Hy. tauto.
  - apply IH in Hy. tauto.
Qed.

Lemma keeps_det {A} (P : A -> Prop) l l1 l2 : keeps P l l1 -> keeps P l l2 -> l1 = l2.
Proof.
  intros H. revert l2. induction H as [|x l l' Hp H IH|x l l' Hp H IH]; intros l2 H2; inversion H2; subst;
    try contradiction; f_equal; auto.
Qed.
