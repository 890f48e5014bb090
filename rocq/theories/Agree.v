(** * When two semantics of queries give the same answers.

    The backends order edge types differently and match values differently.
    Where the edge types and values involved do not expose the difference, the
    semantics is the same; and it is deterministic for queries that do not
    start at an index lookup (whose results come in no particular order). *)
From Verif Require Import Base OMap Json Types Util Db Mem Spec QueryFacts SpecFacts QueryTrust JsonFacts MemFacts MemRefine RdbSpec.

Set Implicit Arguments.

(** The query does not start from an index lookup. *)
Definition ordered (q : query) : Prop := index_of (leaf q) = None.

(** The value comparisons a query makes. *)
Fixpoint value_tests (q : query) : list (ident * json) :=
  match q with
  | QVertexWithPropertyValue n x | QEdgeWithPropertyValue n x => [(n, x)]
  | QPipeWithPropertyValue i n x _ => (n, x) :: value_tests i
  | QPipe i _ _ _ | QPipeProperty i _ | QPipeWithPropertyPresence i _ _ | QInclude i | QCount i => value_tests i
  | _ => []
  end.

(** [x] is stored in [g] under the name [n]. *)
Definition stored (g : graph) (n : ident) (x : json) : Prop :=
  (exists id, get (id, n) (gvp g) = Some x) \/ (exists e, get (e, n) (gep g) = Some x).

(** ** Moving between the two *)
Section Transfer.
  Variable g : graph.
  Variables tlt tlt' : ident -> ident -> Prop.
  Variables vmatch vmatch' : json -> json -> Prop.
  Hypothesis Types : forall e f, is_edge g e -> is_edge g f -> tlt (et e) (et f) -> tlt' (et e) (et f).

  Definition tests_agree (q : query) : Prop :=
    forall n x, In (n, x) (value_tests q) -> forall y, stored g n y -> (vmatch y x <-> vmatch' y x).

  Lemma elt_transfer e f : is_edge g e -> is_edge g f -> elt tlt e f -> elt tlt' e f.
  Proof. unfold elt. intros He Hf [L|[E [L|L]]]; auto. Qed.

  Lemma sorted_transfer {A} (R R' : A -> A -> Prop) (P : A -> Prop) l :
    (forall a b, P a -> P b -> R a b -> R' a b) -> (forall x, In x l -> P x) -> StronglySorted R l -> StronglySorted R' l.
  Proof.
    intros H Hl. induction 1 as [|a l S IH F]; constructor.
    - apply IH. intros; apply Hl; now right.
    - rewrite Forall_forall in *. intros b Hb. apply H; [apply Hl; now left|apply Hl; now right|auto].
  Qed.

  Lemma edges_at_transfer d t v l : edges_at tlt g d t v l -> edges_at tlt' g d t v l.
  Proof.
    intros [S I]. split; [|exact I].
    eapply sorted_transfer with (P := is_edge g); [|intros x Hx; now apply I in Hx|exact S].
    intros a b Ha Hb. destruct d; cbn [dir_lt].
    - now apply elt_transfer.
    - unfold elt. cbn. intros [L|[E [L|L]]]; auto.
  Qed.

  Lemma has_value_v (v : vertex) n x : (forall y, stored g n y -> (vmatch y x <-> vmatch' y x)) ->
    (has_value vmatch (vprop_fn g v) n x <-> has_value vmatch' (vprop_fn g v) n x).
  Proof.
    intros H. unfold has_value, vprop_fn. split; intros (y & E & M); exists y; (split; [assumption|]);
      apply (H y); auto; left; eauto.
  Qed.
  Lemma has_value_e (e : edge) n x : (forall y, stored g n y -> (vmatch y x <-> vmatch' y x)) ->
    (has_value vmatch (eprop_fn g e) n x <-> has_value vmatch' (eprop_fn g e) n x).
  Proof.
    intros H. unfold has_value, eprop_fn. split; intros (y & E & M); exists y; (split; [assumption|]);
      apply (H y); auto; right; eauto.
  Qed.

  Lemma keeps_iff {A} (P Q : A -> Prop) l l' : (forall x, P x <-> Q x) -> keeps P l l' -> keeps Q l l'.
  Proof.
    intros H. induction 1; [constructor|apply keeps_yes; [now apply H|auto]|apply keeps_no; [now rewrite <- H|auto]].
  Qed.
  Lemma flag_iff b P Q : (P <-> Q) -> (flag_holds b P <-> flag_holds b Q).
  Proof. destruct b; cbn; tauto. Qed.

  Theorem evals_transfer q ex v : tests_agree q -> evals tlt vmatch g q ex v -> evals tlt' vmatch' g q ex v.
  Proof.
    intros A E. induction E; cbn [value_tests] in *.
    - now constructor.
    - now constructor.
    - now constructor.
    - now constructor.
    - constructor; auto. intros w. rewrite H1. now rewrite (@has_value_v w n x (A n x (or_introl eq_refl))).
    - constructor. destruct H as [S I]. split; [|exact I].
      eapply sorted_transfer with (P := is_edge g); [apply elt_transfer|intros x Hx; now apply I|exact S].
    - now constructor.
    - now constructor.
    - constructor; auto. intros w. rewrite H1. now rewrite (@has_value_e w n x (A n x (or_introl eq_refl))).
    - econstructor; eauto.
    - econstructor; [eauto|]. eapply Forall2_impl_In; [|eassumption]. intros; now apply edges_at_transfer.
    - econstructor; eauto.
    - econstructor; eauto.
    - econstructor; eauto.
    - econstructor; eauto.
    - econstructor; [|assumption|].
      + apply IHE. intros m y Hin. apply A. now right.
      + eapply keeps_iff; [|eassumption]. intros w. apply flag_iff, has_value_v, (A n x (or_introl eq_refl)).
    - econstructor; [|assumption|].
      + apply IHE. intros m y Hin. apply A. now right.
      + eapply keeps_iff; [|eassumption]. intros w. apply flag_iff, has_value_e, (A n x (or_introl eq_refl)).
    - constructor; auto.
    - econstructor; eauto.
  Qed.

  Lemma tests_inner q i : inner_of q = Some i -> tests_agree q -> tests_agree i.
  Proof.
    intros H A n x Hin. apply A. destruct q; cbn in H; inversion H; subst; cbn [value_tests]; auto. now right.
  Qed.

  Theorem fails_transfer q e : tests_agree q -> fails tlt vmatch g q e -> fails tlt' vmatch' g q e.
  Proof.
    intros A F. induction F as [q i e Hi F IH|q i ex v Hi E Ac|q n Hi Hx N|q i n ex v Hi E Ac Hx N].
    - eapply fail_inner; [exact Hi|]. apply IH. eapply tests_inner; eauto.
    - eapply fail_kind; [exact Hi| |exact Ac]. eapply evals_transfer; [|exact E]. eapply tests_inner; eauto.
    - eapply fail_leaf; eauto.
    - eapply fail_stage; [exact Hi| |exact Ac|exact Hx|exact N]. eapply evals_transfer; [|exact E]. eapply tests_inner; eauto.
  Qed.

  Theorem resolves_transfer o r a : (forall q, op_query o = Some q -> tests_agree q) ->
    resolves tlt vmatch g o r a -> resolves tlt' vmatch' g o r a.
  Proof.
    intros A R. destruct R; try (econstructor; eauto; fail);
      econstructor; try eassumption; (eapply evals_transfer || eapply fails_transfer); try eassumption; now apply A.
  Qed.
End Transfer.

(** ** Determinism *)
Section Det.
  Variable g : graph.
  Variable tlt : ident -> ident -> Prop.
  Variable vmatch : json -> json -> Prop.
  Hypothesis T : type_order tlt.
  Notation evals := (evals tlt vmatch g).
  Notation fails := (fails tlt vmatch g).

  Lemma edges_at_det d t v l l' : edges_at tlt g d t v l -> edges_at tlt g d t v l' -> l = l'.
  Proof.
    intros [S I] [S' I']. eapply (sorted_ext (R := dir_lt tlt d)); eauto.
    - intros x. destruct d; apply (elt_irrefl T).
    - intros x y. destruct d; apply (elt_asym T).
    - intros x. now rewrite I, I'.
  Qed.
  Lemma props_at_det p name l l' : props_at p name l -> props_at p name l' -> l = l'.
  Proof.
    intros [S I] [S' I']. eapply (sorted_ext (R := fun a b : nprop => lt (np_name a) (np_name b))); eauto.
    - intros x. apply lt_irrefl.
    - intros x y. apply lt_asym.
    - intros x. now rewrite I, I'.
  Qed.
  Lemma listing_v_det P l l' : listing vlt P l -> listing vlt P l' -> l = l'.
  Proof.
    intros [S I] [S' I']. eapply (sorted_ext (R := vlt)); eauto.
    - intros x. apply lt_irrefl.
    - intros x y. apply lt_asym.
    - intros x. now rewrite I, I'.
  Qed.
  Lemma listing_e_det P l l' : listing (elt tlt) P l -> listing (elt tlt) P l' -> l = l'.
  Proof.
    intros [S I] [S' I']. eapply (sorted_ext (R := elt tlt)); eauto.
    - intros x. apply (elt_irrefl T).
    - intros x y. apply (elt_asym T).
    - intros x. now rewrite I, I'.
  Qed.
  Lemma Forall2_det {A B} (R : A -> B -> Prop) : (forall a b b', R a b -> R a b' -> b = b') ->
    forall l m m', Forall2 R l m -> Forall2 R l m' -> m = m'.
  Proof.
    intros D l m m' F. revert m'. induction F as [|a b l m H F IH]; intros m' F'; inversion F'; subst; [reflexivity|].
    f_equal; eauto.
  Qed.

  Theorem evals_det q : ordered q -> forall ex v ex' v', evals q ex v -> evals q ex' v' -> ex = ex' /\ v = v'.
  Proof.
    unfold ordered. induction q; cbn [leaf index_of]; intros O ex v0 ex' v0' E E'; try discriminate.
    - inversion E; subst; inversion E'; subst. split; [reflexivity|]. f_equal. eapply listing_v_det; eauto.
    - inversion E; subst; inversion E'; subst. split; [reflexivity|]. do 2 f_equal. eapply listing_v_det; eauto.
    - inversion E; subst; inversion E'; subst. auto.
    - inversion E; subst; inversion E'; subst. split; [reflexivity|]. f_equal. eapply listing_e_det; eauto.
    - inversion E; subst; inversion E'; subst. split; [reflexivity|]. f_equal. eapply keeps_det; eauto.
    - inversion E as [| | | | | | | | | ? ? ? ? ? ? ? EI K| ? ? ? ? ? ? ? EI K| | | | | | | |]; subst;
        inversion E' as [| | | | | | | | | ? ? ? ? ? ? ? EI' K'| ? ? ? ? ? ? ? EI' K'| | | | | | | |]; subst;
        destruct (IHq O _ _ _ _ EI EI') as [-> Ev]; inversion Ev; subst.
      + split; [reflexivity|]. do 2 f_equal. eapply keeps_det; eauto.
      + split; [reflexivity|]. do 3 f_equal. eapply Forall2_det; [|eassumption|eassumption]. intros; eapply edges_at_det; eauto.
    - inversion E as [| | | | | | | | | | | ? ? ? ? ? EI K| ? ? ? ? ? EI K| | | | | |]; subst;
        inversion E' as [| | | | | | | | | | | ? ? ? ? ? EI' K'| ? ? ? ? ? EI' K'| | | | | |]; subst;
        destruct (IHq O _ _ _ _ EI EI') as [-> Ev]; inversion Ev; subst.
      + split; [reflexivity|]. do 3 f_equal. eapply Forall2_det; [|eassumption|eassumption]. cbn. intros; eapply props_at_det; eauto.
      + split; [reflexivity|]. do 3 f_equal. eapply Forall2_det; [|eassumption|eassumption]. cbn. intros; eapply props_at_det; eauto.
    - inversion E as [| | | | | | | | | | | | | ? ? ? ? ? ? EI I K| ? ? ? ? ? ? EI I K| | | |]; subst;
        inversion E' as [| | | | | | | | | | | | | ? ? ? ? ? ? EI' I' K'| ? ? ? ? ? ? EI' I' K'| | | |]; subst;
        destruct (IHq O _ _ _ _ EI EI') as [-> Ev]; inversion Ev; subst.
      + split; [reflexivity|]. f_equal. eapply keeps_det; eauto.
      + split; [reflexivity|]. f_equal. eapply keeps_det; eauto.
    - inversion E as [| | | | | | | | | | | | | | | ? ? ? ? ? ? ? EI I K| ? ? ? ? ? ? ? EI I K| |]; subst;
        inversion E' as [| | | | | | | | | | | | | | | ? ? ? ? ? ? ? EI' I' K'| ? ? ? ? ? ? ? EI' I' K'| |]; subst;
        destruct (IHq O _ _ _ _ EI EI') as [-> Ev]; inversion Ev; subst.
      + split; [reflexivity|]. f_equal. eapply keeps_det; eauto.
      + split; [reflexivity|]. f_equal. eapply keeps_det; eauto.
    - inversion E; subst; inversion E'; subst. eauto.
    - inversion E as [| | | | | | | | | | | | | | | | | |? ? ? ? EI S]; subst;
        inversion E' as [| | | | | | | | | | | | | | | | | |? ? ? ? EI' S']; subst;
        destruct (IHq O _ _ _ _ EI EI') as [-> Ev]; subst.
      split; [reflexivity|]. congruence.
  Qed.

  Lemma evals_inner q i ex v : inner_of q = Some i -> evals q ex v ->
    exists ex' v', evals i ex' v' /\ accepts q v' = true /\ (forall n, index_of q = Some n -> indexed g n).
  Proof.
    intros Hi E. destruct E; cbn in Hi; inversion Hi; subst; do 2 eexists; (split; [eassumption|]); cbn;
      (split; [try reflexivity|intros ? Hx; inversion Hx; subst; auto]).
    destruct v; cbn in *; congruence || reflexivity.
  Qed.

  Lemma ordered_inner q i : inner_of q = Some i -> ordered q -> ordered i.
  Proof. destruct q; cbn; intros H; inversion H; subst; auto. Qed.

  Theorem fails_evals q e ex v : ordered q -> fails q e -> evals q ex v -> False.
  Proof.
    intros O F. revert ex v. induction F as [q i e Hi F IH|q i exi vi Hi EI Ac|q n Hi Hx N|q i n exi vi Hi EI Ac Hx N]; intros ex v E.
    - destruct (evals_inner Hi E) as (ex' & v' & E' & _). exact (IH (ordered_inner Hi O) _ _ E').
    - destruct (evals_inner Hi E) as (ex' & v' & E' & A & _).
      destruct (evals_det (ordered_inner Hi O) EI E') as [_ ->]. congruence.
    - unfold ordered in O. destruct q; cbn in *; discriminate.
    - destruct (evals_inner Hi E) as (ex' & v' & E' & A & I). exact (N (I n Hx)).
  Qed.

  Theorem fails_det q e e' : ordered q -> fails q e -> fails q e' -> e = e'.
  Proof.
    intros O F. revert e'. induction F as [q i e Hi F IH|q i exi vi Hi EI Ac|q n Hi Hx N|q i n exi vi Hi EI Ac Hx N]; intros e' F';
      (inversion F' as [q' i' e1 Hi' F1|q' i' ex' v' Hi' E' Ac'|q' n' Hi' Hx' N'|q' i' n' ex' v' Hi' E' Ac' Hx' N']; subst);
      try congruence; try (rewrite Hi in Hi'; inversion Hi'; subst); auto.
    - apply IH; auto. eapply ordered_inner; eauto.
    - exfalso. eapply fails_evals; [eapply ordered_inner; eauto|exact F|exact E'].
    - exfalso. eapply fails_evals; [eapply ordered_inner; eauto|exact F|exact E'].
    - exfalso. eapply fails_evals; [eapply ordered_inner; eauto|exact F1|exact EI].
    - destruct (evals_det (ordered_inner Hi O) EI E') as [_ ->]. congruence.
    - exfalso. eapply fails_evals; [eapply ordered_inner; eauto|exact F1|exact EI].
    - destruct (evals_det (ordered_inner Hi O) EI E') as [_ ->]. congruence.
  Qed.

  Theorem resolves_det o r a r' a' : (forall q, op_query o = Some q -> ordered q) ->
    resolves tlt vmatch g o r a -> resolves tlt vmatch g o r' a' -> r = r' /\ a = a'.
  Proof.
    intros O R R'.
    destruct R; inversion R'; subst; auto; try congruence;
      repeat match goal with
      | E1 : Spec.evals _ _ _ ?q _ _, E2 : Spec.evals _ _ _ ?q _ _ |- _ =>
          let H := fresh in let H' := fresh in
          destruct (evals_det (O q eq_refl) E1 E2) as [H H']; clear E2; try (inversion H'; fail);
          try (injection H' as H'); subst
      | F1 : Spec.fails _ _ _ ?q _, E2 : Spec.evals _ _ _ ?q _ _ |- _ => destruct (fails_evals (O q eq_refl) F1 E2)
      | F1 : Spec.fails _ _ _ ?q _, F2 : Spec.fails _ _ _ ?q _ |- _ =>
          rewrite (fails_det (O q eq_refl) F1 F2); clear F2
      end; auto; try discriminate.
  Qed.
End Det.
