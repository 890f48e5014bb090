(** * Facts about serializations: what the decoder sees, and that the encoders
    write serializations. *)
From Coq Require Import String.
From Verif Require Import Base OMap Json Types Proto MemFacts Wire WireFacts Schema.

Set Implicit Arguments.
Local Open Scope string_scope.
Local Open Scope list_scope.
Local Notation bytes := (list byte).

(** ** Integers and fields *)
Lemma digits_read n b : digits n b -> forall k r, (length b <= S k)%nat -> (n < 2 ^ (7 * N.of_nat k + 1))%N -> unvarint_aux (S k) (b ++ r) = Some (n, r).
Proof.
  induction 1 as [x Hx|x n b Hx D IH]; intros k r L B; cbn [app unvarint_aux].
  - destruct (N.ltb_spec (bN x) 128); [|lia]. destruct k as [|k]; cbn [Nat.eqb andb]; [|reflexivity].
    destruct (N.leb_spec 2 (bN x)); [|reflexivity]. cbn in B. lia.
  - destruct (N.ltb_spec (bN x) 128); [lia|]. destruct k as [|k]; [cbn in L; destruct D; cbn in L; lia|].
    rewrite (IH k r); [reflexivity|cbn in L; lia|].
    assert (128 * n < 128 * 2 ^ (7 * N.of_nat k + 1))%N; [|lia].
    replace (7 * N.of_nat (S k) + 1)%N with (7 + (7 * N.of_nat k + 1))%N in B by lia. rewrite N.pow_add_r in B. change (2 ^ 7)%N with 128%N in B. lia.
Qed.
Lemma varint_read n b r : is_varint n b -> unvarint (b ++ r) = Some (n, r).
Proof. intros (D & L & B). unfold unvarint. apply (digits_read D); [assumption|exact B]. Qed.
Lemma bN_small n : (n < 256)%N -> bN (byte_of n) = n.
Proof. intros. rewrite bN_byte_of. now apply N.mod_small. Qed.
Lemma digits_one n : (n < 128)%N -> digits n [byte_of n].
Proof. intros. rewrite <- (@bN_small n) at 1 by lia. constructor. rewrite bN_small; lia. Qed.
Lemma is_varint_varint n : (n < 2 ^ 64)%N -> is_varint n (varint n).
Proof.
  intros B. unfold varint. assert (forall k n, (n < 2 ^ (7 * N.of_nat k + 1))%N -> digits n (varint_aux (S k) n) /\ (length (varint_aux (S k) n) <= S k)%nat) as G.
  { clear. induction k as [|k IH]; intros n B; cbn [varint_aux].
    - cbn in B. destruct (N.ltb_spec n 128); [|lia]. split; [|cbn; lia]. now apply digits_one.
    - destruct (N.ltb_spec n 128).
      + split; [|cbn; lia]. now apply digits_one.
      + destruct (IH (n / 128)%N) as [D L].
        { apply N.div_lt_upper_bound; [lia|]. replace (7 * N.of_nat (S k) + 1)%N with (7 + (7 * N.of_nat k + 1))%N in B by lia. rewrite N.pow_add_r in B. exact B. }
        split; [|cbn [length]; cbn [varint_aux] in L; lia]. pose proof (N.mod_lt n 128 ltac:(lia)) as Mo. pose proof (N.div_mod n 128 ltac:(lia)) as Dv.
        pose proof (@d_more (byte_of (n mod 128 + 128)) (n / 128) (varint_aux (S k) (n / 128))) as Dm. rewrite bN_small in Dm by lia.
        replace (n mod 128 + 128 - 128 + 128 * (n / 128))%N with n in Dm by lia. apply Dm; [lia|exact D]. }
  destruct (G 9 n) as [D L]; [exact B|]. split; [exact D|]. split; [exact L|exact B].
Qed.

Lemma key_read t w k r : (1 <= t < 2 ^ 29)%N -> (w < 8)%N -> is_varint (8 * t + w) k -> get_key (k ++ r) = Some (t, w, r).
Proof.
  intros T W V. unfold get_key. rewrite (varint_read r V).
  assert (2 ^ 32 <=? 8 * t + w = false)%N as -> by (apply N.leb_gt; change (2 ^ 32)%N with (8 * 2 ^ 29)%N; lia).
  replace ((8 * t + w) / 8)%N with t by (symmetry; rewrite N.mul_comm, N.div_add_l, N.div_small by lia; lia).
  replace ((8 * t + w) mod 8)%N with w by (symmetry; rewrite N.add_comm, N.mul_comm, N.mod_add, N.mod_small by lia; lia).
  destruct (N.eqb_spec t 0); [lia|reflexivity].
Qed.
Lemma take_read (x r : bytes) n : length x = n -> take (N.of_nat n) (x ++ r) = Some (x, r).
Proof. intros <-. change (N.of_nat (length x)) with (lenN x). apply take_app. Qed.
Lemma is_varint_len n b : is_varint n b -> (1 <= length b)%nat.
Proof. intros (D & _). destruct D; cbn; lia. Qed.
Lemma is_field_len t w b : is_field t w b -> (2 <= length b)%nat.
Proof.
  destruct 1; rewrite ?app_length;
    repeat match goal with V : is_varint _ _ |- _ => apply is_varint_len in V end; lia.
Qed.
(** The decoder's field splitter reads one field. *)
Lemma field_read f d t w b r l : is_field t w b -> (1 <= d)%nat -> (1 <= f)%nat -> fields f d r = Some l -> fields (S f) d (b ++ r) = Some ((t, w) :: l).
Proof.
  intros Fi D Lf Fr. destruct d as [|d]; [lia|]. destruct f as [|f]; [lia|].
  assert (forall x : bytes, (2 <= length x)%nat -> forall A (p q : A), match x ++ r with [] => p | _ => q end = q) as Ne
    by (intros [|? ?]; cbn; [lia|reflexivity]).
  remember (S f) as f' eqn:Ef. cbn [fields]. rewrite (Ne b (is_field_len Fi)). clear Ne.
  destruct Fi as [t n k b T K V|t x k b T K V|t x k T K L|t x k T K L].
  - rewrite <- app_assoc. rewrite <- (N.add_0_r (8 * t)) in K. rewrite (@key_read t 0 k _ T eq_refl K). cbn [N.eqb]. rewrite (varint_read _ V), Fr. reflexivity.
  - rewrite <- !app_assoc. rewrite (@key_read t 2 k _ T eq_refl K). cbn [N.eqb Pos.eqb]. rewrite (varint_read _ V), take_app, Fr. reflexivity.
  - rewrite <- app_assoc. rewrite (@key_read t 1 k _ T eq_refl K). cbn [N.eqb Pos.eqb]. rewrite Ef. cbn [skip_field N.eqb Pos.eqb]. change 8%N with (N.of_nat 8); rewrite (@take_read x r 8 L). cbn [option_map snd]. rewrite <- Ef, Fr. reflexivity.
  - rewrite <- app_assoc. rewrite (@key_read t 5 k _ T eq_refl K). cbn [N.eqb Pos.eqb]. rewrite Ef. cbn [skip_field N.eqb Pos.eqb]. change 4%N with (N.of_nat 4); rewrite (@take_read x r 4 L). cbn [option_map snd]. rewrite <- Ef, Fr. reflexivity.
Qed.

(** ** What the decoder sees of a message *)
Inductive raw (m : string) : list (N * wval) -> list (string * dval) -> Prop :=
| r_nil : raw m [] []
| r_known f w v wl occ : In f (schema m) -> says (f_type f) w v -> raw m wl occ -> raw m ((f_num f, w) :: wl) ((f_name f, v) :: occ)
| r_unknown t w wl occ : ~ In t (map f_num (schema m)) -> raw m wl occ -> raw m ((t, w) :: wl) occ.
Lemma occurs_raw m b occ d : occurs m b occ -> (1 <= d)%nat -> exists wl, raw m wl occ /\ forall f, (length b < f)%nat -> fields f d b = Some wl.
Proof.
  intros O D. induction O as [m|m f w b v r occ Hf Fi Sa O IH|m t w b r occ Ht Fi O IH].
  - exists []. split; [constructor|]. intros [|f] L; [lia|reflexivity].
  - destruct IH as (wl & R & Fl). exists ((f_num f, w) :: wl). split; [now constructor|]. intros g L. rewrite app_length in L. pose proof (is_field_len Fi).
    destruct g as [|g]; [lia|]. apply field_read; auto; [lia|]. apply Fl. lia.
  - destruct IH as (wl & R & Fl). exists ((t, w) :: wl). split; [now constructor|]. intros g L. rewrite app_length in L. pose proof (is_field_len Fi).
    destruct g as [|g]; [lia|]. apply field_read; auto; [lia|]. apply Fl. lia.
Qed.
Lemma occurs_merge m b occ d {M} (step : M -> N * wval -> option M) m0 : occurs m b occ -> (1 <= d)%nat ->
  exists wl, raw m wl occ /\ merge step d m0 b = fold_fields step m0 wl.
Proof.
  intros O D. destruct (occurs_raw O D) as (wl & R & Fl). exists wl. split; [assumption|]. unfold merge. rewrite Fl by lia. reflexivity.
Qed.

(** The schema gives different names and different numbers to the fields of a
    message. *)
Definition nodups {A} (eq : A -> A -> bool) : list A -> bool :=
  fix go l := match l with [] => true | x :: r => negb (existsb (eq x) r) && go r end.
Lemma nodups_ok {A} (eq : A -> A -> bool) l : (forall x, eq x x = true) -> nodups eq l = true -> NoDup l.
Proof.
  intros R. induction l as [|x l IH]; cbn; [constructor|]. rewrite Bool.andb_true_iff, Bool.negb_true_iff. intros [E N]. constructor; [|auto].
  intros Hin. assert (existsb (eq x) l = true); [|congruence]. apply existsb_exists. exists x. auto.
Qed.
Lemma schema_in m : schema m = [] \/ In (m, schema m) message_types.
Proof.
  unfold schema. destruct (find _ message_types) as [[n l]|] eqn:E; [|now left]. apply find_some in E as [Hin E]. cbn in E. apply String.eqb_eq in E as ->. now right.
Qed.
Lemma schema_names m : NoDup (map f_name (schema m)).
Proof.
  destruct (schema_in m) as [->|Hin]; [constructor|].
  assert (forallb (fun x => nodups String.eqb (map f_name (snd x))) message_types = true) as A by reflexivity.
  rewrite forallb_forall in A. apply A in Hin. apply nodups_ok in Hin; [assumption|apply String.eqb_refl].
Qed.
Lemma schema_nums m : NoDup (map f_num (schema m)).
Proof.
  destruct (schema_in m) as [->|Hin]; [constructor|].
  assert (forallb (fun x => nodups N.eqb (map f_num (snd x))) message_types = true) as A by reflexivity.
  rewrite forallb_forall in A. apply A in Hin. apply nodups_ok in Hin; [assumption|apply N.eqb_refl].
Qed.
Lemma schema_bounds m f : In f (schema m) -> (1 <= f_num f < 2 ^ 28)%N.
Proof.
  destruct (schema_in m) as [->|Hin]; [intros []|]. intros Hf.
  assert (forallb (fun x => forallb (fun f => (1 <=? f_num f)%N && (f_num f <? 2 ^ 28)%N) (snd x)) message_types = true) as A by reflexivity.
  rewrite forallb_forall in A. apply A in Hin. cbn [snd] in Hin. rewrite forallb_forall in Hin. apply Hin in Hf. rewrite Bool.andb_true_iff, N.leb_le, N.ltb_lt in Hf. exact Hf.
Qed.
Lemma nodup_inj {A B} (p : A -> B) l x y : NoDup (map p l) -> In x l -> In y l -> p x = p y -> x = y.
Proof.
  induction l as [|z l IH]; cbn; [tauto|]. intros N. inversion N as [|? ? Nin N']; subst. intros [->|Hx] [->|Hy] E; auto.
  - elim Nin. rewrite E. now apply in_map.
  - elim Nin. rewrite <- E. now apply in_map.
Qed.

(** The payloads of one field. *)
Definition pay (t : N) (wl : list (N * wval)) : list wval := map snd (filter (fun x => fst x =? t)%N wl).
Lemma raw_pay m wl occ f : raw m wl occ -> In f (schema m) -> Forall2 (says (f_type f)) (pay (f_num f) wl) (vals (f_name f) occ).
Proof.
  intros R Hf. unfold pay, vals. induction R as [|g w v wl occ Hg Sa R IH|t w wl occ Ht R IH]; cbn [filter map fst]; [constructor| |].
  - destruct (N.eqb_spec (f_num g) (f_num f)) as [E|E].
    + assert (g = f) as -> by (eapply nodup_inj; [apply schema_nums|exact Hg|exact Hf|exact E]). rewrite String.eqb_refl. cbn [map snd]. now constructor.
    + destruct (String.eqb_spec (f_name g) (f_name f)) as [E'|E']; [|assumption].
      elim E. f_equal. eapply nodup_inj; [apply schema_names|exact Hg|exact Hf|exact E'].
  - destruct (N.eqb_spec t (f_num f)) as [->|E]; [|assumption]. elim Ht. now apply in_map.
Qed.
Definition lookup (m n : string) : option pfield := find (fun f => f_name f =? n) (schema m).
Lemma lookup_in m n f : lookup m n = Some f -> In f (schema m) /\ f_name f = n.
Proof. unfold lookup. intros E. apply find_some in E as [? E]. split; [assumption|]. now apply String.eqb_eq. Qed.

(** Folding a decoder's step over fields in any order: each component of the
    message depends on its own field only. *)
Fixpoint fold_pay {A} (s : A -> wval -> option A) (a : A) (l : list wval) : option A :=
  match l with [] => Some a | w :: r => match s a w with Some a' => fold_pay s a' r | None => None end end.
Section Components.
  Variable M : Type.
  Variable d : nat.
  Hypothesis D : (1 <= d)%nat.
  Variable step : M -> N * wval -> option M.
  Lemma known_unknown (m : M) : unknown d m = Some m.
  Proof. destruct d; [lia|reflexivity]. Qed.

  Lemma pay_eq t w wl : pay t ((t, w) :: wl) = w :: pay t wl.
  Proof. unfold pay. cbn. now rewrite N.eqb_refl. Qed.
  Lemma pay_neq t t' w wl : t' <> t -> pay t ((t', w) :: wl) = pay t wl.
  Proof. unfold pay. cbn. intros E. apply N.eqb_neq in E. now rewrite E. Qed.

  Lemma comp4 {A B C E} (mk : A -> B -> C -> E -> M) ta tb tc te sa sb sc se :
    NoDup [ta; tb; tc; te] ->
    (forall a b c e f, step (mk a b c e) f =
      if (fst f =? ta)%N then option_map (fun x => mk x b c e) (sa a (snd f))
      else if (fst f =? tb)%N then option_map (fun x => mk a x c e) (sb b (snd f))
      else if (fst f =? tc)%N then option_map (fun x => mk a b x e) (sc c (snd f))
      else if (fst f =? te)%N then option_map (fun x => mk a b c x) (se e (snd f))
      else unknown d (mk a b c e)) ->
    forall wl a b c e a' b' c' e', fold_pay sa a (pay ta wl) = Some a' -> fold_pay sb b (pay tb wl) = Some b' ->
    fold_pay sc c (pay tc wl) = Some c' -> fold_pay se e (pay te wl) = Some e' -> fold_fields step (mk a b c e) wl = Some (mk a' b' c' e').
  Proof.
    intros N St wl. apply NoDup_cons_iff in N as [N1 N]. apply NoDup_cons_iff in N as [N2 N]. apply NoDup_cons_iff in N as [N3 N]. cbn [In] in *.
    induction wl as [|[t w] wl IH]; intros a b c e a' b' c' e' Pa Pb Pc Pe; cbn [fold_fields].
    - cbn in *. congruence.
    - rewrite St. cbn [fst snd].
      destruct (N.eqb_spec t ta) as [->|Ea]; [|destruct (N.eqb_spec t tb) as [->|Eb]; [|destruct (N.eqb_spec t tc) as [->|Ec]; [|destruct (N.eqb_spec t te) as [->|Ee]]]].
      + rewrite pay_eq in Pa. cbn [fold_pay] in Pa. destruct (sa a w) as [x|]; [|discriminate]. cbn [option_map].
        rewrite pay_neq in Pb, Pc, Pe by intuition. now apply IH.
      + rewrite pay_eq in Pb. cbn [fold_pay] in Pb. destruct (sb b w) as [x|]; [|discriminate]. cbn [option_map].
        rewrite pay_neq in Pa, Pc, Pe by intuition. now apply IH.
      + rewrite pay_eq in Pc. cbn [fold_pay] in Pc. destruct (sc c w) as [x|]; [|discriminate]. cbn [option_map].
        rewrite pay_neq in Pa, Pb, Pe by intuition. now apply IH.
      + rewrite pay_eq in Pe. cbn [fold_pay] in Pe. destruct (se e w) as [x|]; [|discriminate]. cbn [option_map].
        rewrite pay_neq in Pa, Pb, Pc by intuition. now apply IH.
      + rewrite known_unknown. rewrite pay_neq in Pa, Pb, Pc, Pe by intuition. now apply IH.
  Qed.
  (** With fewer components. *)
  Lemma comp3 {A B C} (mk : A -> B -> C -> M) ta tb tc sa sb sc :
    NoDup [ta; tb; tc] ->
    (forall a b c f, step (mk a b c) f =
      if (fst f =? ta)%N then option_map (fun x => mk x b c) (sa a (snd f))
      else if (fst f =? tb)%N then option_map (fun x => mk a x c) (sb b (snd f))
      else if (fst f =? tc)%N then option_map (fun x => mk a b x) (sc c (snd f))
      else unknown d (mk a b c)) ->
    forall wl a b c a' b' c', fold_pay sa a (pay ta wl) = Some a' -> fold_pay sb b (pay tb wl) = Some b' ->
    fold_pay sc c (pay tc wl) = Some c' -> fold_fields step (mk a b c) wl = Some (mk a' b' c').
  Proof.
    intros N St wl. apply NoDup_cons_iff in N as [N1 N]. apply NoDup_cons_iff in N as [N2 N]. cbn [In] in *.
    induction wl as [|[t w] wl IH]; intros a b c a' b' c' Pa Pb Pc; cbn [fold_fields].
    - cbn in *. congruence.
    - rewrite St. cbn [fst snd].
      destruct (N.eqb_spec t ta) as [->|Ea]; [|destruct (N.eqb_spec t tb) as [->|Eb]; [|destruct (N.eqb_spec t tc) as [->|Ec]]].
      + rewrite pay_eq in Pa. cbn [fold_pay] in Pa. destruct (sa a w) as [x|]; [|discriminate]. cbn [option_map].
        rewrite pay_neq in Pb, Pc by intuition. now apply IH.
      + rewrite pay_eq in Pb. cbn [fold_pay] in Pb. destruct (sb b w) as [x|]; [|discriminate]. cbn [option_map].
        rewrite pay_neq in Pa, Pc by intuition. now apply IH.
      + rewrite pay_eq in Pc. cbn [fold_pay] in Pc. destruct (sc c w) as [x|]; [|discriminate]. cbn [option_map].
        rewrite pay_neq in Pa, Pb by intuition. now apply IH.
      + rewrite known_unknown. rewrite pay_neq in Pa, Pb, Pc by intuition. now apply IH.
  Qed.
  Lemma comp2 {A B} (mk : A -> B -> M) ta tb sa sb :
    ta <> tb ->
    (forall a b f, step (mk a b) f =
      if (fst f =? ta)%N then option_map (fun x => mk x b) (sa a (snd f))
      else if (fst f =? tb)%N then option_map (fun x => mk a x) (sb b (snd f))
      else unknown d (mk a b)) ->
    forall wl a b a' b', fold_pay sa a (pay ta wl) = Some a' -> fold_pay sb b (pay tb wl) = Some b' -> fold_fields step (mk a b) wl = Some (mk a' b').
  Proof.
    intros N St wl. induction wl as [|[t w] wl IH]; intros a b a' b' Pa Pb; cbn [fold_fields].
    - cbn in *. congruence.
    - rewrite St. cbn [fst snd]. destruct (N.eqb_spec t ta) as [->|Ea]; [|destruct (N.eqb_spec t tb) as [->|Eb]].
      + rewrite pay_eq in Pa. cbn [fold_pay] in Pa. destruct (sa a w) as [x|]; [|discriminate]. cbn [option_map]. rewrite pay_neq in Pb by intuition. now apply IH.
      + rewrite pay_eq in Pb. cbn [fold_pay] in Pb. destruct (sb b w) as [x|]; [|discriminate]. cbn [option_map]. rewrite pay_neq in Pa by intuition. now apply IH.
      + rewrite known_unknown. rewrite pay_neq in Pa, Pb by intuition. now apply IH.
  Qed.
  Lemma comp1 {A} (mk : A -> M) ta sa :
    (forall a f, step (mk a) f = if (fst f =? ta)%N then option_map mk (sa a (snd f)) else unknown d (mk a)) ->
    forall wl a a', fold_pay sa a (pay ta wl) = Some a' -> fold_fields step (mk a) wl = Some (mk a').
  Proof.
    intros St wl. induction wl as [|[t w] wl IH]; intros a a' Pa; cbn [fold_fields].
    - cbn in *. congruence.
    - rewrite St. cbn [fst snd]. destruct (N.eqb_spec t ta) as [->|Ea].
      + rewrite pay_eq in Pa. cbn [fold_pay] in Pa. destruct (sa a w) as [x|]; [|discriminate]. cbn [option_map]. now apply IH.
      + rewrite known_unknown. rewrite pay_neq in Pa by intuition. now apply IH.
  Qed.
End Components.

(** ** Fields of a message *)
Lemma vals_app n a b : vals n (a ++ b) = vals n a ++ vals n b.
Proof. unfold vals. now rewrite filter_app, map_app. Qed.
Definition named (n : string) (l : list (string * dval)) : Prop := Forall (fun x => fst x = n) l.
Lemma vals_other n n' l : named n' l -> (n' =? n) = false -> vals n l = [].
Proof. intros N E. unfold vals. induction N as [|x l Hx N IH]; cbn; [reflexivity|]. now rewrite Hx, E. Qed.
Lemma vals_same n l : named n l -> vals n l = map snd l.
Proof. intros N. unfold vals. induction N as [|x l Hx N IH]; cbn; [reflexivity|]. rewrite Hx, String.eqb_refl. cbn. now rewrite IH. Qed.
Lemma named_text n b : named n (text n b).
Proof. destruct b; repeat constructor. Qed.
Lemma named_number n b : named n (number n b).
Proof. unfold number. destruct (_ =? _)%N; repeat constructor. Qed.
Lemma named_enum n b : named n (enum n b).
Proof. unfold enum. destruct (_ =? _)%Z; repeat constructor. Qed.
Lemma named_flag n b : named n (flag n b).
Proof. destruct b; repeat constructor. Qed.
Lemma named_embedded {M} n (f : M -> _) o : named n (embedded n f o).
Proof. destruct o; repeat constructor. Qed.
Lemma named_repeated {M} n (f : M -> _) l : named n (repeated n f l).
Proof. apply Forall_forall. intros x Hx. apply in_map_iff in Hx as (y & <- & _). reflexivity. Qed.

Lemma depth_vals v n l : In v (vals n l) -> (S (depth v) <= depth (DMsg l))%nat.
Proof.
  unfold vals. intros Hin. apply in_map_iff in Hin as ([n' v'] & <- & Hin). apply filter_In in Hin as [Hin _]. cbn [depth snd].
  apply le_n_S. pose proof (proj1 (list_max_le (map (fun x => depth (snd x)) l) _) (le_n _)) as F. rewrite Forall_forall in F. apply F.
  apply in_map_iff. exists (n', v'). auto.
Qed.

(** A decoder reads every serialization of a message. *)
Definition understands (m : string) {M} (dec : nat -> M -> bytes -> option M) (dflt : M) (v : M) (l : list (string * dval)) : Prop :=
  forall b occ d, occurs m b occ -> content m occ l -> (depth (DMsg l) <= d)%nat -> dec d dflt b = Some v.

Section Fields.
  Variables (m : string) (wl : list (N * wval)) (occ l : list (string * dval)) (d : nat).
  Hypothesis R : raw m wl occ.
  Hypothesis C : content m occ l.
  Hypothesis Dp : (depth (DMsg l) <= d)%nat.

  Lemma plain_vals n ty t : lookup m n = Some (F Plain ty n t) ->
    Forall2 (says ty) (pay t wl) (vals n occ) /\ (length (vals n occ) <= 1)%nat /\ filter (fun v => negb (default v)) (vals n occ) = vals n l.
  Proof.
    intros E. apply lookup_in in E as [Hin _]. pose proof (@raw_pay _ _ _ _ R Hin) as P. cbn in P. split; [assumption|].
    destruct C as [C0 _]. specialize (C0 _ Hin). exact C0.
  Qed.
  Lemma repeated_vals n ty t : lookup m n = Some (F Repeated ty n t) -> Forall2 (says ty) (pay t wl) (vals n l).
  Proof.
    intros E. apply lookup_in in E as [Hin _]. pose proof (@raw_pay _ _ _ _ R Hin) as P. cbn in P. destruct C as [C0 _]. specialize (C0 _ Hin). cbn in C0. now rewrite <- C0.
  Qed.
  (** At most one payload: none or one. *)
  Lemma plain_cases n ty t : lookup m n = Some (F Plain ty n t) ->
    (pay t wl = [] /\ vals n l = []) \/ (exists w v, pay t wl = [w] /\ says ty w v /\ vals n l = if default v then [] else [v]).
  Proof.
    intros E. destruct (plain_vals E) as (P & L & Fi). inversion P as [E1 E2|w v ws vs Sa P' E1 E2].
    - left. split; [reflexivity|]. rewrite <- Fi, <- E2. reflexivity.
    - rewrite <- E2 in *. destruct vs; [|cbn in L; lia]. inversion P'; subst ws. right. exists w, v. split; [reflexivity|]. split; [assumption|].
      rewrite <- Fi. cbn. now destruct (default v).
  Qed.

  Lemma field_text n t b ty get : lookup m n = Some (F Plain ty n t) -> (ty = TBytes /\ get = get_bytes) \/ (ty = TString /\ get = get_string) ->
    vals n l = vals n (text n b) -> fold_pay (fun _ w => get w) [] (pay t wl) = Some b.
  Proof.
    intros E K V. rewrite (vals_same (named_text n b)) in V.
    destruct (plain_cases E) as [[-> V0]|(w & v & -> & Sa & V1)]; cbn [fold_pay].
    - rewrite V0 in V. destruct b; [reflexivity|discriminate].
    - assert (exists x, w = WLen x /\ v = DText x /\ get w = Some x) as (x & -> & -> & ->).
      { destruct K as [[-> ->]|[-> ->]]; inversion Sa; subst; eexists; (split; [reflexivity|]); (split; [reflexivity|]); cbn; auto.
        match goal with H : utf8_valid _ = true |- _ => now rewrite H end. }
      rewrite V1 in V. destruct x, b; cbn in V; congruence.
  Qed.
  Lemma field_number n t k : lookup m n = Some (F Plain TU32 n t) -> vals n l = vals n (number n k) ->
    fold_pay (fun _ w => get_u32 w) 0%N (pay t wl) = Some k.
  Proof.
    intros E V. rewrite (vals_same (named_number n k)) in V. unfold number in V. destruct (plain_cases E) as [[-> V0]|(w & v & -> & Sa & V1)]; cbn [fold_pay].
    - rewrite V0 in V. destruct (N.eqb_spec k 0) as [->|]; [reflexivity|discriminate].
    - inversion Sa as [| |x Hx| | | |]; subst. rewrite get_put_u32 by assumption. rewrite V1 in V. destruct (N.eqb_spec k 0) as [->|], x; cbn in V; congruence.
  Qed.
  Lemma field_flag n t k : lookup m n = Some (F Plain TBool n t) -> vals n l = vals n (flag n k) ->
    fold_pay (fun _ w => get_bool w) false (pay t wl) = Some k.
  Proof.
    intros E V. rewrite (vals_same (named_flag n k)) in V. unfold flag in V. destruct (plain_cases E) as [[-> V0]|(w & v & -> & Sa & V1)]; cbn [fold_pay].
    - rewrite V0 in V. destruct k; [discriminate|reflexivity].
    - inversion Sa as [| | | |x Hx| |]; subst. cbn. rewrite V1 in V. destruct x; cbn in V; destruct k; cbn in V; try discriminate; reflexivity.
  Qed.
  Lemma field_enum n t k : lookup m n = Some (F Plain TEnum n t) -> vals n l = vals n (enum n k) ->
    fold_pay (fun _ w => get_i32 w) 0%Z (pay t wl) = Some k.
  Proof.
    intros E V. rewrite (vals_same (named_enum n k)) in V. unfold enum in V. destruct (plain_cases E) as [[-> V0]|(w & v & -> & Sa & V1)]; cbn [fold_pay].
    - rewrite V0 in V. destruct (Z.eqb_spec k 0) as [->|]; [reflexivity|discriminate].
    - inversion Sa as [| | | | |z Hz|]; subst. rewrite get_put_i32 by assumption. rewrite V1 in V. destruct (Z.eqb_spec k 0) as [->|], z; cbn in V; congruence.
  Qed.
  Definition opt_step {A} (g : A -> bytes -> option A) (dflt : A) (o : option A) (w : wval) : option (option A) :=
    option_map Some (get_msg g (or_default dflt o) w).
  Lemma field_embedded {A} (dec : nat -> A -> bytes -> option A) (g : A -> bytes -> option A) dflt by_name o n t m' :
    (forall a b, g a b = down dec d a b) ->
    lookup m n = Some (F Plain (TMsg m') n t) -> vals n l = vals n (embedded n by_name o) ->
    (forall x, o = Some x -> understands m' dec dflt x (by_name x)) ->
    fold_pay (opt_step g dflt) None (pay t wl) = Some o.
  Proof.
    intros Eg E V U. rewrite (vals_same (named_embedded n by_name o)) in V. destruct (plain_cases E) as [[-> V0]|(w & v & -> & Sa & V1)]; cbn [fold_pay].
    - rewrite V0 in V. destruct o; [discriminate|reflexivity].
    - inversion Sa as [| | | | | |m0 b occ0 l0 O0 C0]; subst. cbn in V1. destruct o as [x|]; cbn in V; rewrite V in V1; [|discriminate].
      inversion V1 as [E1]. unfold opt_step. cbn [get_msg or_default]. rewrite Eg.
      assert (S (depth (DMsg (by_name x))) <= d)%nat as L by (etransitivity; [apply depth_vals with (n := n); rewrite V; now left|exact Dp]).
      destruct d as [|d']; [lia|]. cbn [down]. rewrite (U x eq_refl b occ0 d'); [reflexivity|assumption|now rewrite E1|lia].
  Qed.
  Definition list_step {A} (dec : nat -> A -> bytes -> option A) (dflt : A) (acc : list A) (w : wval) : option (list A) :=
    option_map (fun x => acc ++ [x]) (get_msg (down dec d) dflt w).
  Lemma field_repeated {A} (dec : nat -> A -> bytes -> option A) dflt by_name xs n t m' :
    lookup m n = Some (F Repeated (TMsg m') n t) -> vals n l = vals n (repeated n by_name xs) ->
    (forall x, In x xs -> understands m' dec dflt x (by_name x)) ->
    fold_pay (list_step dec dflt) [] (pay t wl) = Some xs.
  Proof.
    intros E V U. pose proof (repeated_vals E) as P.
    assert (forall v, In v (vals n l) -> S (depth v) <= d)%nat as Dv by (intros v Hv; etransitivity; [eapply depth_vals, Hv|exact Dp]).
    rewrite V in P, Dv. rewrite (vals_same (named_repeated n by_name xs)) in P, Dv. unfold repeated in P, Dv. rewrite map_map in P, Dv. cbn [snd] in P, Dv.
    remember (pay t wl) as ws eqn:Ews. clear Ews. clear V E.
    enough (forall acc, fold_pay (list_step dec dflt) acc ws = Some (acc ++ xs)) as G by apply (G []).
    revert xs U P Dv. induction ws as [|w ws IH]; intros xs U P Dv acc; inversion P as [|? v ? vs Sa P' E1 E2]; subst.
    - destruct xs; [|discriminate]. cbn. now rewrite app_nil_r.
    - destruct xs as [|x xs]; [discriminate|]. cbn in E2. inversion E2; subst v vs. inversion Sa as [| | | | | |m0 b occ0 l0 O0 C0]; subst.
      cbn [fold_pay]. unfold list_step at 1. cbn [get_msg].
      assert (S (depth (DMsg (by_name x))) <= d)%nat as L by (apply Dv; now left).
      destruct d as [|d'] eqn:Ed; [lia|]. cbn [down]. rewrite (U x (or_introl eq_refl) b occ0 d'); [|assumption|assumption|lia]. cbn [option_map].
      rewrite (IH xs); [now rewrite <- app_assoc| |assumption|].
      + intros y Hy. apply U. now right.
      + intros y Hy. apply Dv. now right.
  Qed.

  (** A message that is one of several alternatives. *)
  Definition alternatives : Prop := Forall (fun f => f_kind f = OneOf) (schema m) /\ schema m <> [].
  Lemma occ_known x : In x occ -> In (fst x) (map f_name (schema m)).
  Proof.
    intros Hx. clear C. induction R as [|f w v wl' occ' Hf Sa R' IH|t w wl' occ' Ht R' IH]; [destruct Hx| |auto].
    destruct Hx as [<-|Hx]; [cbn [fst]; now apply in_map|auto].
  Qed.
  Lemma oneof_vals n : In n (map f_name (schema m)) -> alternatives -> vals n occ = vals n l /\ (length occ <= 1)%nat.
  Proof.
    intros Hn [A Ne]. apply in_map_iff in Hn as (f & <- & Hf). rewrite Forall_forall in A. destruct C as [C0 C1]. split.
    - specialize (C0 f Hf). now rewrite (A f Hf) in C0.
    - apply C1. exists f. split; [assumption|now apply A].
  Qed.
  Lemma oneof_none {M} (step : M -> N * wval -> option M) m0 : alternatives -> l = [] ->
    (forall a t w, ~ In t (map f_num (schema m)) -> step a (t, w) = Some a) -> fold_fields step m0 wl = Some m0.
  Proof.
    intros A L Un. assert (occ = []) as Eo.
    { pose proof occ_known as K. pose proof (fun n Hn => @oneof_vals n Hn A) as Vs. destruct occ as [|[n v] occ']; [reflexivity|].
      destruct (Vs n) as [V _]; [apply (K (n, v)); now left|].
      rewrite L in V. unfold vals in V. cbn in V. rewrite String.eqb_refl in V. discriminate. }
    clear C. rewrite Eo in R. clear Eo. remember (@nil (string * dval)) as o eqn:Eo in R. revert Eo. induction R as [|f w v wl' occ' Hf Sa R' IH|t w wl' occ' Ht R' IH]; intros Eo; [reflexivity|discriminate|].
    cbn [fold_fields]. rewrite Un by assumption. auto.
  Qed.
  Lemma oneof_one {M} (step : M -> N * wval -> option M) m0 n v ty t : alternatives -> l = [(n, v)] -> lookup m n = Some (F OneOf ty n t) ->
    (forall a t w, ~ In t (map f_num (schema m)) -> step a (t, w) = Some a) ->
    exists w, says ty w v /\ fold_fields step m0 wl = step m0 (t, w).
  Proof.
    intros A L E Un. apply lookup_in in E as [Hf _].
    destruct (@oneof_vals n) as [V Le]; [change n with (f_name (F OneOf ty n t)); now apply in_map|assumption|].
    assert (occ = [(n, v)]) as Eo.
    { rewrite L in V. unfold vals in V. cbn in V. rewrite String.eqb_refl in V. destruct occ as [|[n' v'] [|]]; cbn in V, Le; [discriminate| |lia].
      destruct (String.eqb_spec n' n) as [->|]; cbn in V; [congruence|discriminate]. }
    clear C V Le L. rewrite Eo in R. clear Eo. remember [(n, v)] as o eqn:Eo in R. revert Eo. induction R as [|f w v' wl' occ' Hf' Sa R' IH|t' w wl' occ' Ht R' IH]; intros Eo; [discriminate| |].
    - inversion Eo; subst. assert (f = F OneOf ty (f_name f) t) as Ef by (eapply nodup_inj; [apply schema_names|exact Hf'|exact Hf|reflexivity]).
      rewrite Ef in *. cbn [f_type f_num] in *. exists w. split; [assumption|]. cbn [fold_fields]. destruct (step m0 (t, w)) as [a|]; [|reflexivity].
      clear - R' Un. remember (@nil (string * dval)) as o eqn:Eo in R'. revert Eo. induction R' as [|f w v wl' occ' Hf Sa R' IH|t' w wl' occ' Ht R' IH]; intros Eo; [reflexivity|discriminate|].
      cbn [fold_fields]. rewrite Un by assumption. auto.
    - destruct (IH R' Eo) as (w' & Sa & Ef). exists w'. split; [assumption|]. cbn [fold_fields]. rewrite Un by assumption. exact Ef.
  Qed.
End Fields.

(** ** Encoders *)
Definition conforms (m : string) {M} (enc : M -> bytes) (ok : M -> Prop) (by_name : M -> list (string * dval)) : Prop :=
  forall x, ok x -> small (enc x) -> serializes m (enc x) (by_name x).

Lemma field_put f : field_ok f -> is_field (fst f) (snd f) (put_field f).
Proof.
  destruct f as [t [n|b|]]; intros [T O]; cbn [fst snd] in *; [| |destruct O]; unfold put_field; cbn [fst snd].
  - constructor; [change (2 ^ 29)%N with (2 * 2 ^ 28)%N; lia| |]; apply is_varint_varint; [change (2 ^ 64)%N with (2 ^ 36 * 2 ^ 28)%N; lia|assumption].
  - constructor; [change (2 ^ 29)%N with (2 * 2 ^ 28)%N; lia| |]; apply is_varint_varint; [change (2 ^ 64)%N with (2 ^ 36 * 2 ^ 28)%N; lia|assumption].
Qed.
Lemma raw_occurs m l occ : raw m l occ -> Forall field_ok l -> occurs m (wire l) occ.
Proof.
  induction 1 as [|f w v wl occ Hf Sa R IH|t w wl occ Ht R IH]; intros O; [constructor| |]; inversion O; subst; unfold wire; cbn [flat_map].
  - eapply o_known; [assumption|now apply (@field_put (f_num f, w))|assumption|now apply IH].
  - eapply o_unknown; [eassumption|now apply (@field_put (t, w))|now apply IH].
Qed.
(** The fields an encoder writes, if what is in them is small. *)
Definition writes (m : string) (l : list (N * wval)) (occ : list (string * dval)) : Prop :=
  (forall t b, In (t, WLen b) l -> small b) -> raw m l occ /\ Forall field_shape l.
Lemma writes_serializes m l occ l' : writes m l occ -> content m occ l' -> small (wire l) -> serializes m (wire l) l'.
Proof.
  intros W C Sm. destruct W as [R Sh]; [intros t b Hin; eapply wire_small; eassumption|].
  exists occ. split; [|assumption]. apply raw_occurs; [assumption|]. now apply fields_ok.
Qed.
Lemma writes_nil m : writes m [] [].
Proof. intros _. split; constructor. Qed.
Lemma raw_app m a b a' b' : raw m a a' -> raw m b b' -> raw m (a ++ b) (a' ++ b').
Proof. intros Ra Rb. induction Ra; cbn [app]; [assumption|now constructor|now constructor]. Qed.
Lemma writes_app m a b a' b' : writes m a a' -> writes m b b' -> writes m (a ++ b) (a' ++ b').
Proof.
  intros Wa Wb Sm. destruct Wa as [Ra Sa]; [intros t x Hx; apply (Sm t); apply in_app_iff; now left|].
  destruct Wb as [Rb Sb]; [intros t x Hx; apply (Sm t); apply in_app_iff; now right|]. split; [now apply raw_app|]. apply Forall_app. auto.
Qed.
Lemma writes_one m f w v : In f (schema m) -> match w with WVar n => (n < 2 ^ 64)%N | WLen _ => True | WOther => False end ->
  (match w with WLen b => small b | _ => True end -> says (f_type f) w v) -> writes m [(f_num f, w)] [(f_name f, v)].
Proof.
  intros Hf Hw Sa Sm. split.
  - constructor; [assumption| |constructor]. apply Sa. destruct w; auto. apply (Sm (f_num f)). now left.
  - repeat constructor; cbn; auto; now apply (schema_bounds m).
Qed.
Lemma writes_text m n t ty b : lookup m n = Some (F Plain ty n t) -> ty = TBytes \/ (ty = TString /\ utf8_valid b = true) -> writes m (put_bytes t b) (text n b).
Proof.
  intros E K. destruct b as [|x b]; [apply writes_nil|]. cbn [put_bytes text]. apply lookup_in in E as [Hf _].
  apply (@writes_one m (F Plain ty n t) (WLen (x :: b)) (DText (x :: b)) Hf); [exact I|]. intros _. cbn. destruct K as [->|[-> U]]; now constructor.
Qed.
Lemma writes_number m n t k : lookup m n = Some (F Plain TU32 n t) -> (k < 2 ^ 32)%N -> writes m (put_num t k) (number n k).
Proof.
  intros E K. unfold put_num, number. destruct (_ =? _)%N; [apply writes_nil|]. apply lookup_in in E as [Hf _].
  apply (@writes_one m (F Plain TU32 n t) (WVar k) (DNum k) Hf); [change (2 ^ 64)%N with (2 ^ 32 * 2 ^ 32)%N; lia|]. intros _. now constructor.
Qed.
Lemma writes_flag m n t b : lookup m n = Some (F Plain TBool n t) -> writes m (put_bool t b) (flag n b).
Proof.
  intros E. unfold put_bool, flag. destruct b; [|apply writes_nil]. apply lookup_in in E as [Hf _].
  apply (@writes_one m (F Plain TBool n t) (WVar 1) (DNum 1) Hf); [reflexivity|]. intros _. constructor. reflexivity.
Qed.
Lemma writes_enum m n t z : lookup m n = Some (F Plain TEnum n t) -> (- 2 ^ 31 <= z < 2 ^ 31)%Z -> writes m (put_i32 t z) (enum n z).
Proof.
  intros E K. unfold put_i32, enum. destruct (_ =? _)%Z; [apply writes_nil|]. apply lookup_in in E as [Hf _].
  apply (@writes_one m (F Plain TEnum n t) (WVar (Z.to_N (z mod 2 ^ 64))) (DInt z) Hf).
  - pose proof (Z.mod_pos_bound z (2 ^ 64) eq_refl) as B. apply N2Z.inj_lt. rewrite Z2N.id by (apply B). exact (proj2 B).
  - intros _. now constructor.
Qed.
Lemma writes_message {M} m n t k m' (enc : M -> bytes) ok by_name x : lookup m n = Some (F k (TMsg m') n t) -> conforms m' enc ok by_name -> ok x ->
  writes m [(t, WLen (enc x))] [(n, DMsg (by_name x))].
Proof.
  intros E C O. apply lookup_in in E as [Hf _]. apply (@writes_one m (F k (TMsg m') n t) (WLen (enc x)) (DMsg (by_name x)) Hf); [exact I|]. intros Sm. cbn.
  destruct (C x O Sm) as (occ & Oc & Co). econstructor; eauto.
Qed.
Lemma writes_embedded {M} m n t k m' (enc : M -> bytes) ok by_name o : lookup m n = Some (F k (TMsg m') n t) -> conforms m' enc ok by_name -> opt_ok ok o ->
  writes m (put_opt t enc o) (embedded n by_name o).
Proof. intros E C O. destruct o as [x|]; [|apply writes_nil]. eapply writes_message; eauto. Qed.
Lemma writes_repeated {M} m n t k m' (enc : M -> bytes) ok by_name l : lookup m n = Some (F k (TMsg m') n t) -> conforms m' enc ok by_name -> Forall ok l ->
  writes m (put_list t enc l) (repeated n by_name l).
Proof.
  intros E C O. induction O as [|x l Ox O IH]; [apply writes_nil|]. apply (@writes_app m [(t, WLen (enc x))] (put_list t enc l) [(n, DMsg (by_name x))]); [|assumption].
  eapply writes_message; eauto.
Qed.

(** What is written has the contents of the message. *)
Definition plain_vals_ok (vs : list dval) : Prop := (length vs <= 1)%nat /\ filter (fun v => negb (default v)) vs = vs.
Lemma plain_text n b : plain_vals_ok (vals n (text n b)).
Proof. rewrite (vals_same (named_text n b)). destruct b; split; cbn; auto. Qed.
Lemma plain_number n k : plain_vals_ok (vals n (number n k)).
Proof. rewrite (vals_same (named_number n k)). unfold number. destruct (N.eqb_spec k 0); split; cbn; auto. destruct k; [congruence|reflexivity]. Qed.
Lemma plain_enum n k : plain_vals_ok (vals n (enum n k)).
Proof. rewrite (vals_same (named_enum n k)). unfold enum. destruct (Z.eqb_spec k 0); split; cbn; auto. destruct k; [congruence|reflexivity|reflexivity]. Qed.
Lemma plain_flag n b : plain_vals_ok (vals n (flag n b)).
Proof. rewrite (vals_same (named_flag n b)). destruct b; split; cbn; auto. Qed.
Lemma plain_embedded {M} n (f : M -> _) o : plain_vals_ok (vals n (embedded n f o)).
Proof. rewrite (vals_same (named_embedded n f o)). destruct o; split; cbn; auto. Qed.
Lemma content_oneof m n v : Forall (fun f => f_kind f = OneOf) (schema m) -> content m [(n, v)] [(n, v)].
Proof.
  intros A. rewrite Forall_forall in A. split; [|cbn; auto]. intros f Hf. rewrite (A f Hf). reflexivity.
Qed.
Lemma content_nil m : content m [] [].
Proof. split; [|cbn; auto]. intros f Hf. unfold vals. cbn. destruct (f_kind f); auto. Qed.
