(** * C52: queries can be rewritten: laws of query composition. *)
From Coq Require Import Permutation.
From Verif Require Import Base OMap Json Types Util Db Spec QueryFacts SpecFacts QueryTrust JsonFacts UtilFacts
  MemFacts MemRefine MemHist KeyFacts Mem Rdb RdbSpec RdbRep RdbWrite RdbPut RdbRefine RdbGraph RdbHist RdbCrash Stages Effects
  Claims PropsMem Examples PropsMemIndex PropsRdb PropsRdbIndex.

Set Implicit Arguments.
Local Open Scope list_scope.

(** ** Specification *)

(** A filter stage: keep elements that have (or do not have) a property, or whose
    property is (or is not) equal to a value. *)
Inductive filt := FHas (n : ident) (yes : bool) | FEqual (n : ident) (x : json) (yes : bool).
Definition filtered (f : filt) (q : query) : query :=
  match f with FHas n b => QPipeWithPropertyPresence q n b | FEqual n x b => QPipeWithPropertyValue q n x b end.
Definition opposite (f : filt) : filt := match f with FHas n b => FHas n (negb b) | FEqual n x b => FEqual n x (negb b) end.

(** The first elements of a listing; a listing without elements; two joined. *)
Definition first (n : N) (v : outv) : outv :=
  match v with Vertices l => Vertices (firstn (N.to_nat n) l) | Edges l => Edges (firstn (N.to_nat n) l) | v => v end.
Definition none_of (v : outv) : outv :=
  match v with Vertices _ => Vertices [] | Edges _ => Edges [] | v => v end.
Definition join (v w : outv) : outv :=
  match v, w with Vertices a, Vertices b => Vertices (a ++ b) | Edges a, Edges b => Edges (a ++ b) | v, _ => v end.
Definition joined (x y : outcome outv) : outcome outv :=
  match x, y with Ok v, Ok w => Ok (join v w) | Ok _, e => e | e, _ => e end.
(** The same elements in some order. *)
Definition shuffled (v w : outv) : Prop :=
  match v, w with Vertices a, Vertices b => Permutation a b | Edges a, Edges b => Permutation a b | _, _ => False end.
Definition of_type (t : ident) (v : outv) : outv :=
  match v with
  | Vertices l => Vertices (filter (fun v => eqb (vt v) t) l)
  | Edges l => Edges (filter (fun e => eqb (et e) t) l)
  | v => v
  end.
Definition size (v : outv) : N := match v with Vertices l => lenN l | Edges l => lenN l | _ => 0 end.

Record query_laws {S} (ops : txn_ops S) (s : S) : Prop := {
  (** Filters: twice is once, the order does not matter, a filter and its opposite
      leave nothing, and what one drops the other keeps. *)
  ql_twice : forall f q, answer ops s (filtered f (filtered f q)) = answer ops s (filtered f q);
  ql_order : forall f h q, answer ops s (filtered f (filtered h q)) = answer ops s (filtered h (filtered f q));
  ql_opposite : forall f q, answer ops s (filtered (opposite f) (filtered f q)) = omapo none_of (answer ops s (filtered f q));
  ql_split : forall f q v, answer ops s q = Ok v -> forall a b, answer ops s (filtered f q) = Ok a ->
    answer ops s (filtered (opposite f) q) = Ok b -> shuffled (join a b) v;
  (** Asking for several elements is asking for each of them; so for what hangs
      off them. *)
  ql_vertices : forall a b, answer ops s (QSpecificVertex (a ++ b)) = joined (answer ops s (QSpecificVertex a)) (answer ops s (QSpecificVertex b));
  ql_edges : forall a b, answer ops s (QSpecificEdge (a ++ b)) = joined (answer ops s (QSpecificEdge a)) (answer ops s (QSpecificEdge b));
  ql_hop_vertices : forall a b d n t, answer ops s (QPipe (QSpecificVertex (a ++ b)) d n t) =
    omapo (first n) (joined (answer ops s (QPipe (QSpecificVertex a) d n t)) (answer ops s (QPipe (QSpecificVertex b) d n t)));
  ql_hop_edges : forall a b d n t, answer ops s (QPipe (QSpecificEdge (a ++ b)) d n t) =
    omapo (first n) (joined (answer ops s (QPipe (QSpecificEdge a) d n t)) (answer ops s (QPipe (QSpecificEdge b) d n t)));
  (** A range without a start is a beginning of the listing of all vertices. *)
  ql_range : forall n, answer ops s (QRangeVertex n None None) = omapo (first n) (answer ops s QAllVertex);
  ql_range_type : forall n t, answer ops s (QRangeVertex n (Some t) None) = omapo (fun v => first n (of_type t v)) (answer ops s QAllVertex);
  (** Asking for a type is asking for all and dropping the others, as long as all
      are within the limit. *)
  ql_hop_type : forall q d n t v, answer ops s (QPipe q d n None) = Ok v -> (size v < n)%N -> answer ops s (QPipe q d n (Some t)) = Ok (of_type t v)
}.

(** With exact indexes: a lookup is a filtered listing of everything. *)
Record lookup_laws {S} (ops : txn_ops S) (s : S) : Prop := {
  ll_vertices : forall n v w, answer ops s (QVertexWithPropertyPresence n) = Ok v -> answer ops s (filtered (FHas n true) QAllVertex) = Ok w -> shuffled v w;
  ll_vertices_value : forall n x v w, answer ops s (QVertexWithPropertyValue n x) = Ok v -> answer ops s (filtered (FEqual n x true) QAllVertex) = Ok w -> shuffled v w;
  ll_edges : forall n v w, answer ops s (QEdgeWithPropertyPresence n) = Ok v -> answer ops s (filtered (FHas n true) QAllEdge) = Ok w -> shuffled v w;
  ll_edges_value : forall n x v w, answer ops s (QEdgeWithPropertyValue n x) = Ok v -> answer ops s (filtered (FEqual n x true) QAllEdge) = Ok w -> shuffled v w;
  (** And both fail for a name that is not indexed. *)
  ll_same_error : forall n x, answer ops s (QVertexWithPropertyPresence n) = Err NotIndexed <-> answer ops s (filtered (FEqual n x true) QAllVertex) = Err NotIndexed
}.

(** ** Proof *)
Section Laws.
  Context {S : Type}.
  Variable ops : txn_ops S.
  Variable s : S.
  Variable g : graph.
  Variable tlt : ident -> ident -> Prop.
  Variable vmatch : json -> json -> Prop.
  Variable ixok : ident -> Prop.
  Variable bad : uuid -> Prop.
  Hypothesis T : type_order tlt.
  Hypothesis RO : reads_ok ops s g tlt vmatch ixok bad.

  (** A filter stage keeps the elements that pass some test, or fails. *)
  Definition vtests (f : filt) : outcome (vertex -> bool) :=
    match f with
    | FHas n b => let? l := indexed_or_err (t_vertex_ids_with_property ops s n) in Ok (fun v => flagged b (contains (vid v) l))
    | FEqual n x b => let? l := indexed_or_err (t_vertex_ids_with_property_value ops s n x) in Ok (fun v => flagged b (contains (vid v) l))
    end.
  Definition etests (f : filt) : outcome (edge -> bool) :=
    match f with
    | FHas n b => let? l := indexed_or_err (t_edges_with_property ops s n) in Ok (fun e => flagged b (contains e l))
    | FEqual n x b => let? l := indexed_or_err (t_edges_with_property_value ops s n x) in Ok (fun e => flagged b (contains e l))
    end.
  Definition through (f : filt) (v : outv) : outcome outv :=
    match v with
    | Vertices l => let? p := vtests f in Ok (Vertices (filter p l))
    | Edges l => let? p := etests f in Ok (Edges (filter p l))
    | _ => Err OperationOnQuery
    end.
  Lemma through_stage f q : answer ops s (filtered f q) = (let? v := answer ops s q in through f v).
  Proof.
    assert (inner_of (filtered f q) = Some q) as I by (destruct f; reflexivity). rewrite (answer_stage T RO _ I). destruct (answer ops s q) as [v|e|]; cbn [obind]; auto.
    destruct f, v; cbn [filtered stage_value through vtests etests]; auto;
      match goal with |- context [indexed_or_err ?x] => destruct (indexed_or_err x) end; reflexivity.
  Qed.
  (** Index lookups fail with [NotIndexed] or not at all. *)
  Lemma lookup_fate {A} n (x : outcome (option (iter A))) P : lookup g ixok n x P ->
    (exists l, indexed_or_err x = Ok l) \/ indexed_or_err x = Err NotIndexed.
  Proof. intros [[-> _]|(l & -> & _)]; [now right|left]. unfold indexed_or_err. cbn. rewrite collect_Ok. eauto. Qed.
  Lemma vtests_fate f : (exists p, vtests f = Ok p) \/ vtests f = Err NotIndexed.
  Proof.
    destruct f; cbn [vtests].
    - destruct (lookup_fate (ro_vindex RO n)) as [(l & ->)| ->]; cbn; eauto.
    - destruct (lookup_fate (ro_vindex_value RO n x)) as [(l & ->)| ->]; cbn; eauto.
  Qed.
  Lemma etests_fate f : (exists p, etests f = Ok p) \/ etests f = Err NotIndexed.
  Proof.
    destruct f; cbn [etests].
    - destruct (lookup_fate (ro_eindex RO n)) as [(l & ->)| ->]; cbn; eauto.
    - destruct (lookup_fate (ro_eindex_value RO n x)) as [(l & ->)| ->]; cbn; eauto.
  Qed.
  Lemma flagged_negb b x : flagged (negb b) x = negb (flagged b x).
  Proof. destruct b, x; reflexivity. Qed.
  Lemma vtests_opposite f : match vtests f, vtests (opposite f) with Ok p, Ok q => forall v, q v = negb (p v) | a, b => a = b end.
  Proof.
    destruct f; cbn [opposite vtests]; match goal with |- context [indexed_or_err ?x] => destruct (indexed_or_err x) end; cbn; auto; intros; apply flagged_negb.
  Qed.
  Lemma etests_opposite f : match etests f, etests (opposite f) with Ok p, Ok q => forall v, q v = negb (p v) | a, b => a = b end.
  Proof.
    destruct f; cbn [opposite etests]; match goal with |- context [indexed_or_err ?x] => destruct (indexed_or_err x) end; cbn; auto; intros; apply flagged_negb.
  Qed.
  Lemma filter_twice {A} (p : A -> bool) l : filter p (filter p l) = filter p l.
  Proof. induction l as [|x l IH]; cbn; [reflexivity|]. destruct (p x) eqn:E; cbn; rewrite ?E, ?IH; reflexivity. Qed.
  Lemma filter_swap {A} (p q : A -> bool) l : filter p (filter q l) = filter q (filter p l).
  Proof. induction l as [|x l IH]; cbn; [reflexivity|]. destruct (p x) eqn:E, (q x) eqn:E'; cbn; rewrite ?E, ?E', ?IH; reflexivity. Qed.
  Lemma filter_against {A} (p q : A -> bool) l : (forall x, q x = negb (p x)) -> filter q (filter p l) = [].
  Proof. intros N. induction l as [|x l IH]; cbn; [reflexivity|]. destruct (p x) eqn:E; cbn; [|assumption]. now rewrite N, E. Qed.
  Lemma filter_halves {A} (p q : A -> bool) l : (forall x, q x = negb (p x)) -> Permutation (filter p l ++ filter q l) l.
  Proof.
    intros N. induction l as [|x l IH]; cbn; [constructor|]. rewrite (N x). destruct (p x); cbn; [now constructor|].
    apply Permutation_sym, Permutation_cons_app, Permutation_sym, IH.
  Qed.

  Lemma first_first n v w : first n (join (first n v) (first n w)) = first n (join v w).
  Proof.
    assert (forall A (a b : list A), firstn (N.to_nat n) (firstn (N.to_nat n) a ++ firstn (N.to_nat n) b) = firstn (N.to_nat n) (a ++ b)) as F.
    { intros A a b. rewrite !firstn_app, firstn_firstn, Nat.min_id, firstn_length. f_equal. rewrite firstn_firstn. f_equal. lia. }
    destruct v, w; cbn [first join]; try reflexivity; rewrite ?F, ?firstn_firstn, ?Nat.min_id; reflexivity.
  Qed.

  Lemma leaf_answer q : inner_of q = None -> index_of q = None -> exists v ex, answer ops s q = Ok v /\ evals tlt vmatch g q ex v.
  Proof.
    intros L I. unfold answer. destruct (db_get_ok T RO q) as [(ex & v & -> & V)|[(e & _ & F)|(_ & B)]].
    - intros n Hn. destruct q; cbn in *; try discriminate; contradiction.
    - rewrite rev_app_distr. cbn. eauto.
    - exfalso. inversion F; subst; congruence.
    - exfalso. inversion B; subst; cbn [inner_of] in L; congruence.
  Qed.
  Lemma keeps_app {A} (P : A -> Prop) a b a' b' : keeps P a a' -> keeps P b b' -> keeps P (a ++ b) (a' ++ b').
  Proof. intros K K'. induction K; cbn [app]; [assumption|now constructor|now constructor]. Qed.
  Lemma specific_vertices ids : answer ops s (QSpecificVertex ids) = Ok (Vertices (flat_map (found g) ids)).
  Proof. destruct (@leaf_answer (QSpecificVertex ids) eq_refl eq_refl) as (v & ex & -> & V). inversion V; subst. reflexivity. Qed.
  Lemma specific_edges es : exists l, answer ops s (QSpecificEdge es) = Ok (Edges l) /\ keeps (is_edge g) es l.
  Proof. destruct (@leaf_answer (QSpecificEdge es) eq_refl eq_refl) as (v & ex & -> & V). inversion V; subst. eauto. Qed.

  Lemma hop_vertices q d n t vs : answer ops s q = Ok (Vertices vs) ->
    exists ls, Forall2 (edges_at tlt g d t) vs ls /\ answer ops s (QPipe q d n t) = Ok (Edges (firstn (N.to_nat n) (concat ls))).
  Proof.
    intros A. rewrite (answer_stage T RO (QPipe q d n t) eq_refl), A. cbn [obind stage_value].
    assert (lenN (@nil edge) <= n)%N as L0 by (unfold lenN; cbn; lia). destruct (pipe_vertices_ok T RO d t vs [] L0) as (ls & F & Ep). rewrite Ep. cbn [omapo app].
    exists ls. split; [assumption|]. unfold limited, lenN. cbn [length N.of_nat]. now rewrite N.sub_0_r.
  Qed.
  Lemma hop_edges q d n t es : answer ops s q = Ok (Edges es) ->
    exists l, keeps (fun v => type_ok t (vt v)) (flat_map (found g) (map (endpoint d) es)) l /\ answer ops s (QPipe q d n t) = Ok (Vertices (firstn (N.to_nat n) l)).
  Proof.
    intros A. rewrite (answer_stage T RO (QPipe q d n t) eq_refl), A. cbn [obind stage_value]. destruct (pipe_edges_ok RO d n t es) as (l & K & Ep). rewrite Ep. cbn [omapo]. eauto.
  Qed.
  Lemma typed_edges d t v l : edges_at tlt g d None v l -> edges_at tlt g d (Some t) v (filter (fun e => eqb (et e) t) l).
  Proof. intros L. unfold edges_at in *. eapply listing_filter; [exact L|]. intros e. cbn. rewrite eqb_eq. unfold type_ok. intuition congruence. Qed.
  Lemma concat_filter {A} (p : A -> bool) ls : concat (map (filter p) ls) = filter p (concat ls).
  Proof. induction ls as [|l ls IH]; cbn; [reflexivity|]. now rewrite IH, filter_app. Qed.
  Lemma keeps_all {A} (l l' : list A) : keeps (fun _ => True) l l' -> l' = l.
  Proof. induction 1; [reflexivity|now f_equal|tauto]. Qed.
  Lemma keeps_filter {A} (p : A -> bool) l : keeps (fun x => p x = true) l (filter p l).
  Proof. induction l as [|x l IH]; cbn; [constructor|]. destruct (p x) eqn:E; constructor; auto. congruence. Qed.
  Lemma keeps_iff {A} (P Q : A -> Prop) l l' : (forall x, P x <-> Q x) -> keeps P l l' -> keeps Q l l'.
  Proof. intros I K. induction K; constructor; auto; [now apply I|now rewrite <- I]. Qed.
  Lemma uncut {A} n (l : list A) : (lenN (firstn (N.to_nat n) l) < n)%N -> firstn (N.to_nat n) l = l.
  Proof.
    intros Hl. apply firstn_all2. destruct (Nat.le_gt_cases (length l) (N.to_nat n)) as [?|Gt]; [assumption|].
    unfold lenN in Hl. rewrite firstn_length_le in Hl by lia. lia.
  Qed.

  Lemma filter_shorter {A} (p : A -> bool) l : (length (filter p l) <= length l)%nat.
  Proof. induction l as [|x l IH]; cbn; [lia|]. destruct (p x); cbn; lia. Qed.

  Theorem laws : query_laws ops s.
  Proof.
    split.
    - intros f q. rewrite !through_stage. destruct (answer ops s q) as [[l|l| | |]|e|]; cbn [obind through]; auto.
      + destruct (vtests f) as [p|e|] eqn:Ep; cbn [obind through]; auto. rewrite Ep. cbn [obind]. now rewrite filter_twice.
      + destruct (etests f) as [p|e|] eqn:Ep; cbn [obind through]; auto. rewrite Ep. cbn [obind]. now rewrite filter_twice.
    - intros f h q. rewrite !through_stage. destruct (answer ops s q) as [[l|l| | |]|e|]; cbn [obind through]; auto.
      + destruct (vtests_fate f) as [(p & Ep)|Ep], (vtests_fate h) as [(p' & Ep')|Ep']; rewrite Ep, Ep'; cbn [obind through]; rewrite ?Ep, ?Ep'; cbn [obind]; auto. now rewrite filter_swap.
      + destruct (etests_fate f) as [(p & Ep)|Ep], (etests_fate h) as [(p' & Ep')|Ep']; rewrite Ep, Ep'; cbn [obind through]; rewrite ?Ep, ?Ep'; cbn [obind]; auto. now rewrite filter_swap.
    - intros f q. rewrite !through_stage. destruct (answer ops s q) as [[l|l| | |]|e|]; cbn [obind through omapo]; auto.
      + pose proof (vtests_opposite f) as O. destruct (vtests f) as [p|e|] eqn:Ep; cbn [obind through omapo none_of]; auto.
        destruct (vtests_fate (opposite f)) as [(p' & Ep')|Ep']; rewrite Ep' in *; [|discriminate]. cbn [obind]. now rewrite (filter_against p p' l O).
      + pose proof (etests_opposite f) as O. destruct (etests f) as [p|e|] eqn:Ep; cbn [obind through omapo none_of]; auto.
        destruct (etests_fate (opposite f)) as [(p' & Ep')|Ep']; rewrite Ep' in *; [|discriminate]. cbn [obind]. now rewrite (filter_against p p' l O).
    - intros f q v A a b. rewrite !through_stage, A. cbn [obind]. destruct v as [l|l| | |]; cbn [through]; try discriminate.
      + pose proof (vtests_opposite f) as O. destruct (vtests f) as [p|e|]; cbn [obind]; try discriminate. destruct (vtests (opposite f)) as [p'|e|]; cbn [obind]; try discriminate.
        intros Ea Eb. inversion Ea; inversion Eb; subst. cbn. now apply filter_halves.
      + pose proof (etests_opposite f) as O. destruct (etests f) as [p|e|]; cbn [obind]; try discriminate. destruct (etests (opposite f)) as [p'|e|]; cbn [obind]; try discriminate.
        intros Ea Eb. inversion Ea; inversion Eb; subst. cbn. now apply filter_halves.
    - intros a b. rewrite !specific_vertices. cbn. now rewrite flat_map_app.
    - intros a b. destruct (specific_edges a) as (la & -> & Ka), (specific_edges b) as (lb & -> & Kb), (specific_edges (a ++ b)) as (lc & -> & Kc).
      cbn. do 2 f_equal. eapply keeps_det; [exact Kc|]. now apply keeps_app.
    - intros a b d n t. destruct (hop_vertices _ d n t (specific_vertices a)) as (la & Fa & ->), (hop_vertices _ d n t (specific_vertices b)) as (lb & Fb & ->).
      destruct (hop_vertices _ d n t (specific_vertices (a ++ b))) as (lc & Fc & ->).
      rewrite flat_map_app in Fc. pose proof (Forall2_app Fa Fb) as Fab. rewrite (edges_at_unique_all T Fc Fab), concat_app. cbn [joined omapo]. f_equal.
      symmetry. exact (first_first n (Edges (concat la)) (Edges (concat lb))).
    - intros a b d n t. destruct (specific_edges a) as (la & Aa & Ka), (specific_edges b) as (lb & Ab & Kb), (specific_edges (a ++ b)) as (lc & Ac & Kc).
      assert (lc = la ++ lb) as -> by (eapply keeps_det; [exact Kc|]; now apply keeps_app).
      destruct (hop_edges _ d n t Aa) as (va & Va & ->), (hop_edges _ d n t Ab) as (vb & Vb & ->), (hop_edges _ d n t Ac) as (vc & Vc & ->).
      rewrite map_app, flat_map_app in Vc. assert (vc = va ++ vb) as -> by (eapply keeps_det; [exact Vc|]; now apply keeps_app).
      cbn [joined omapo]. f_equal. symmetry. exact (first_first n (Vertices va) (Vertices vb)).
    - intros n. destruct (@leaf_answer QAllVertex eq_refl eq_refl) as (v & ex & -> & V), (@leaf_answer (QRangeVertex n None None) eq_refl eq_refl) as (w & ex' & -> & W).
      inversion V as [l L| | | | | | | | | | | | | | | | | |]; subst. inversion W as [|? ? ? l' L'| | | | | | | | | | | | | | | | |]; subst. cbn [omapo first]. unfold limited. do 3 f_equal.
      eapply listing_vertices_eq; [exact L'|]. destruct L as [So M]. split; [assumption|]. intros x. rewrite M. cbn. tauto.
    - intros n t. destruct (@leaf_answer QAllVertex eq_refl eq_refl) as (v & ex & -> & V), (@leaf_answer (QRangeVertex n (Some t) None) eq_refl eq_refl) as (w & ex' & -> & W).
      inversion V as [l L| | | | | | | | | | | | | | | | | |]; subst. inversion W as [|? ? ? l' L'| | | | | | | | | | | | | | | | |]; subst. cbn [omapo first of_type]. unfold limited. do 3 f_equal.
      eapply listing_vertices_eq; [exact L'|]. eapply listing_filter; [exact L|]. intros x. cbn. rewrite eqb_eq. unfold type_ok. intuition congruence.
    - intros q d n t v A Sz. destruct (answer ops s q) as [[vs|es| | |]|e|] eqn:Aq.
      3-7: rewrite (answer_stage T RO (QPipe q d n None) eq_refl), Aq in A; discriminate.
      + destruct (hop_vertices _ d n None Aq) as (ls & F & E). rewrite E in A. inversion A; subst v. cbn [size] in Sz. apply uncut in Sz. rewrite Sz.
        destruct (hop_vertices _ d n (Some t) Aq) as (ls' & F' & ->). cbn [of_type]. rewrite <- concat_filter.
        assert (Forall2 (edges_at tlt g d (Some t)) vs (map (filter (fun e => eqb (et e) t)) ls)) as F2.
        { clear - F. induction F; constructor; [now apply typed_edges|assumption]. }
        rewrite (edges_at_unique_all T F' F2), concat_filter. do 2 f_equal. apply firstn_all2. rewrite <- Sz at 1.
        transitivity (length (firstn (N.to_nat n) (concat ls))); [apply filter_shorter|]. rewrite firstn_length. lia.
      + destruct (hop_edges _ d n None Aq) as (l & F & E). rewrite E in A. inversion A; subst v. cbn [size] in Sz. apply uncut in Sz. rewrite Sz.
        destruct (hop_edges _ d n (Some t) Aq) as (l' & F' & ->). cbn [of_type]. cbn [type_ok] in F. apply keeps_all in F. subst l.
        assert (l' = filter (fun v => eqb (vt v) t) (flat_map (found g) (map (endpoint d) es))) as ->.
        { eapply keeps_det; [exact F'|]. eapply keeps_iff; [|apply keeps_filter]. intros x. cbn. rewrite eqb_eq. unfold type_ok. intuition congruence. }
        do 2 f_equal. apply firstn_all2. rewrite <- Sz at 1.
        transitivity (length (firstn (N.to_nat n) (flat_map (found g) (map (endpoint d) es)))); [apply filter_shorter|]. rewrite firstn_length. lia.
  Qed.

  Hypothesis Exact : forall n, indexed g n -> ixok n.
  Lemma any_answer q v : answer ops s q = Ok v -> exists ex, evals tlt vmatch g q ex v.
  Proof.
    intros A. unfold answer in A. destruct (db_get_ok T RO q) as [(ex & w & E & V)|[(e & E & _)|(E & _)]]; [auto| |rewrite E in A; discriminate|rewrite E in A; discriminate].
    rewrite E, rev_app_distr in A. cbn in A. inversion A; subst. eauto.
  Qed.
  Lemma listing_nodup {A} (R : A -> A -> Prop) P l : (forall x, ~ R x x) -> listing R P l -> NoDup l.
  Proof.
    intros Irr [So _]. clear P. induction So as [|x l So IH Hx]; constructor; auto. intros Hin. rewrite Forall_forall in Hx. apply (Irr x). now apply Hx.
  Qed.
  Lemma keeps_nodup {A} (P : A -> Prop) l l' : keeps P l l' -> NoDup l -> NoDup l'.
  Proof.
    intros K. induction K as [|x l l' Px K IH|x l l' Nx K IH]; intros N; [constructor| |inversion N; auto].
    inversion N as [|? ? Nin N']; subst. constructor; [|auto]. intros Hin. apply Nin. apply (keeps_incl K) in Hin. tauto.
  Qed.
  Lemma keeps_In {A} (P : A -> Prop) l l' x : keeps P l l' -> (In x l' <-> In x l /\ P x).
  Proof.
    intros K. split; [now apply keeps_incl|]. intros [Hx Px]. induction K as [|y l l' Py K IH|y l l' Ny K IH]; [destruct Hx| |].
    - destruct Hx as [->|Hx]; [now left|right; auto].
    - destruct Hx as [->|Hx]; [contradiction|auto].
  Qed.
  Lemma nodup_shuffled {A} (l l' : list A) : NoDup l -> NoDup l' -> (forall x, In x l <-> In x l') -> Permutation l l'.
  Proof. intros. now apply NoDup_Permutation. Qed.

  Theorem lookups : lookup_laws ops s.
  Proof.
    assert (forall n x, answer ops s (QVertexWithPropertyPresence n) = Err NotIndexed <-> answer ops s (filtered (FEqual n x true) QAllVertex) = Err NotIndexed) as Err.
    { intros n x. destruct (@leaf_answer QAllVertex eq_refl eq_refl) as (v & ex & Av & V). inversion V; subst.
      rewrite through_stage, Av. cbn [obind through vtests]. unfold answer, db_get. cbn [query_exec].
      destruct (ro_vindex RO n) as [[E1 N1]|(l1 & E1 & I1 & _)], (ro_vindex_value RO n x) as [[E2 N2]|(l2 & E2 & I2 & _)]; try contradiction; rewrite E1, E2; unfold indexed_or_err; cbn [obind of_opt].
      - split; reflexivity.
      - rewrite !collect_Ok. cbn [obind]. rewrite (ro_specific_vertices RO). cbn [obind]. rewrite collect_Ok. cbn. split; discriminate. }
    split; [intros n v w A B|intros n x v w A B|intros n v w A B|intros n x v w A B|exact Err].
    - apply any_answer in A as (ex & Ea). apply any_answer in B as (ex' & Eb). cbn [filtered] in Eb. inversion Ea; subst.
      inversion Eb; subst; match goal with X : evals _ _ _ QAllVertex _ _ |- _ => inversion X; subst end. cbn [shuffled]. apply nodup_shuffled; auto.
      + eapply keeps_nodup; eauto. eapply listing_nodup; [apply vlt_irrefl|]; eauto.
      + intros y. match goal with K : keeps _ _ _ |- _ => rewrite (keeps_In _ K) end. match goal with X : forall _, In _ _ <-> _ |- _ => rewrite X end.
        match goal with X : listing _ _ _ |- _ => destruct X as [_ X]; rewrite X end. cbn. reflexivity.
    - apply any_answer in A as (ex & Ea). apply any_answer in B as (ex' & Eb). cbn [filtered] in Eb. inversion Ea; subst.
      inversion Eb; subst; match goal with X : evals _ _ _ QAllVertex _ _ |- _ => inversion X; subst end. cbn [shuffled]. apply nodup_shuffled; auto.
      + eapply keeps_nodup; eauto. eapply listing_nodup; [apply vlt_irrefl|]; eauto.
      + intros y. match goal with K : keeps _ _ _ |- _ => rewrite (keeps_In _ K) end. match goal with X : forall _, In _ _ <-> _ |- _ => rewrite X end.
        match goal with X : listing _ _ _ |- _ => destruct X as [_ X]; rewrite X end. cbn. reflexivity.
    - apply any_answer in A as (ex & Ea). apply any_answer in B as (ex' & Eb). cbn [filtered] in Eb. inversion Ea; subst.
      inversion Eb; subst; match goal with X : evals _ _ _ QAllEdge _ _ |- _ => inversion X; subst end. cbn [shuffled]. apply nodup_shuffled; auto.
      + eapply keeps_nodup; eauto. eapply listing_nodup; [apply (elt_irrefl T)|]; eauto.
      + intros y. match goal with K : keeps _ _ _ |- _ => rewrite (keeps_In _ K) end. match goal with X : forall _, In _ _ <-> _ |- _ => rewrite X end.
        match goal with X : listing _ _ _ |- _ => destruct X as [_ X]; rewrite X end. cbn. reflexivity.
    - apply any_answer in A as (ex & Ea). apply any_answer in B as (ex' & Eb). cbn [filtered] in Eb. inversion Ea; subst.
      inversion Eb; subst; match goal with X : evals _ _ _ QAllEdge _ _ |- _ => inversion X; subst end. cbn [shuffled]. apply nodup_shuffled; auto.
      + eapply keeps_nodup; eauto. eapply listing_nodup; [apply (elt_irrefl T)|]; eauto.
      + intros y. match goal with K : keeps _ _ _ |- _ => rewrite (keeps_In _ K) end. match goal with X : forall _, In _ _ <-> _ |- _ => rewrite X end.
        match goal with X : listing _ _ _ |- _ => destruct X as [_ X]; rewrite X end. cbn. reflexivity.
  Qed.
End Laws.

(** ** The backends *)

(** Every build and every history. *)
Theorem C52_memory_laws dbg h m ord : mem_run dbg h = Some m -> query_laws (mem_ops dbg ord) m.
Proof. intros R. exact (laws lex_order (run_reads dbg h R ord)). Qed.
Theorem C52_rocksdb_laws H enc dec h env : good_history enc dec h -> query_laws (rdb_ops H enc dec env) (rdb_run H enc dec h).
Proof. intros G. destruct (rdb_run_reads H G env) as (ix & RO). exact (laws slt_order RO). Qed.

(** Lookups: histories that write properties of existing elements only, and debug
    builds of the in-memory database (see C14, C15). *)
Theorem C52_memory_lookups h m ord : mem_run true h = Some m -> tidy_history true h -> lookup_laws (mem_ops true ord) m.
Proof. intros R Ti. apply (lookups lex_order (run_reads true h R ord)). intros n _. now apply tidy_exact with (h := h). Qed.
Theorem C52_rocksdb_lookups H enc dec h env : rtidy_history H enc dec h -> lookup_laws (rdb_ops H enc dec env) (rdb_run H enc dec h).
Proof.
  intros Ti. destruct (run_rtidy Ti) as (L & R & X & NO & _). apply (lookups slt_order (rdb_reads_ok _ R env)). intros n Hi. eapply exact_rix; eauto.
Qed.

(** ** A concrete case

    Filters that keep and drop something, a lookup, a hop of a type within the
    limit. *)
Definition has_name : filt := FHas n_name true.
Definition is_bob : filt := FEqual n_name j_bob true.
Example laws_memory : tidy_history true (calls h_people) /\ exists m, mem_run true (calls h_people) = Some m /\
  answer (mem_ops true id_order) m QAllVertex = Ok (Vertices [v1; v2]) /\
  answer (mem_ops true id_order) m (filtered is_bob QAllVertex) = Ok (Vertices [v1]) /\
  answer (mem_ops true id_order) m (filtered (opposite is_bob) QAllVertex) = Ok (Vertices [v2]) /\
  answer (mem_ops true id_order) m (filtered (opposite is_bob) (filtered has_name QAllVertex)) = Ok (Vertices []) /\
  answer (mem_ops true id_order) m (QVertexWithPropertyValue n_name j_bob) = Ok (Vertices [v1]) /\
  answer (mem_ops true id_order) m (QPipe (QSpecificVertex [u1; u1]) Outbound 3 None) = Ok (Edges [e12; e12]) /\
  answer (mem_ops true id_order) m (QPipe (QSpecificVertex [u1; u1]) Outbound 3 (Some t_likes)) = Ok (Edges [e12; e12]) /\
  answer (mem_ops true id_order) m (QVertexWithPropertyPresence n_age) = Err NotIndexed.
Proof. split; [apply api_tidy; reflexivity|]. apply run_with. vm_compute. auto 10. Qed.
Example laws_rocksdb : rtidy_history hash0 enc0 dec0 (ok_calls h_people) /\
  answer ops0 (run0 (ok_calls h_people)) (filtered is_bob QAllVertex) = Ok (Vertices [v1]) /\
  answer ops0 (run0 (ok_calls h_people)) (filtered (opposite is_bob) QAllVertex) = Ok (Vertices [v2]) /\
  answer ops0 (run0 (ok_calls h_people)) (QVertexWithPropertyValue n_name j_bob) = Ok (Vertices [v1]) /\
  answer ops0 (run0 (ok_calls h_people)) (QPipe (QSpecificVertex [u1; u1]) Outbound 1 None) = Ok (Edges [e12]).
Proof. split; [apply api_rtidy; [good0|apply ok_steady|reflexivity]|]. vm_compute. auto 10. Qed.
