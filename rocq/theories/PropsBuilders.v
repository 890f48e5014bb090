(** * C51: queries written with the builder methods mean what the methods say. *)
From Coq Require Import String.
From Verif Require Import Base OMap Json Types Util Db Spec QueryFacts SpecFacts QueryTrust JsonFacts UtilFacts
  MemFacts MemRefine MemHist KeyFacts Mem Rdb RdbSpec RdbRep RdbWrite RdbPut RdbRefine RdbGraph RdbHist RdbCrash Stages Effects
  Claims PropsMem Examples PropsMemIndex PropsRdb PropsRdbIndex Builders.

Set Implicit Arguments.
Local Open Scope list_scope.

(** ** Settings *)

Lemma final_app {A B} (f : A -> option B) l x : final f (l ++ [x]) = match f x with Some b => Some b | None => final f l end.
Proof.
  induction l as [|y l IH]; cbn [app final]; [destruct (f x); reflexivity|]. rewrite IH. destruct (f x); reflexivity.
Qed.
Lemma range_fold sets : fold_left apply_rset sets range_new =
  RangeQ (final_limit (final rset_limit sets)) (final rset_type sets) (final rset_start sets).
Proof.
  induction sets as [|x sets IH] using rev_ind; [reflexivity|]. rewrite fold_left_app. cbn [fold_left]. rewrite IH, !final_app. destruct x; reflexivity.
Qed.
Lemma pipe_fold q d sets : fold_left apply_pset sets (PipeQ q d u32_max None) =
  PipeQ q d (final_limit (final pset_limit sets)) (final pset_type sets).
Proof.
  induction sets as [|x sets IH] using rev_ind; [reflexivity|]. rewrite fold_left_app. cbn [fold_left]. rewrite IH, !final_app. destruct x; reflexivity.
Qed.
Lemma prop_fold q names : fold_left prop_set_name names (PropQ q None) = PropQ q (final Some names).
Proof.
  induction names as [|x names IH] using rev_ind; [reflexivity|]. rewrite fold_left_app. cbn [fold_left]. rewrite IH, !final_app. reflexivity.
Qed.

(** Every program in the interface's types builds a query. *)
Lemma compile_kind c : exists q, compile c = Some q /\ elem_kind (output_type q) = true.
Proof.
  induction c; cbn [compile]; try (eexists; split; [reflexivity|reflexivity]);
    destruct IHc as (q & -> & K); unfold hop, outbound, inbound, pipeq_new, with_property, without_property, with_property_equal_to, with_property_not_equal_to,
      pipe_presence_new, pipe_value_new; rewrite ?K; cbn [option_map]; (eexists; split; [reflexivity|]); rewrite ?pipe_fold; exact K.
Qed.
(** Order does not matter between settings of different kinds, and the last of
    one kind wins; without any, everything up to [u32::MAX] is asked for. *)
Theorem C51_settings rsets c sets q : compile c = Some q ->
  compile (CRange rsets) = Some (QRangeVertex (final_limit (final rset_limit rsets)) (final rset_type rsets) (final rset_start rsets)) /\
  compile (COut c sets) = Some (QPipe q Outbound (final_limit (final pset_limit sets)) (final pset_type sets)) /\
  compile (CIn c sets) = Some (QPipe q Inbound (final_limit (final pset_limit sets)) (final pset_type sets)).
Proof.
  intros C. destruct (compile_kind c) as (q' & C' & K). rewrite C in C'. inversion C'; subst q'. clear C'.
  cbn [compile]. rewrite C, range_fold. unfold hop, outbound, inbound, pipeq_new. rewrite K. cbn [option_map]. rewrite !pipe_fold. conj; reflexivity.
Qed.

(** The constructors, used directly: for any query that the builders can produce
    and that asks for vertices or edges, a hop without settings has no type and
    the largest limit; property stages ask for all names. *)
Theorem C51_constructors c q d : compile c = Some q ->
  pipe_new q d = Some (QPipe q d 4294967295 None) /\ option_map of_pipe (pipeq_new q d) = pipe_new q d /\
  pipe_property_new q = Some (QPipeProperty q None) /\ option_map of_prop (propq_new q) = pipe_property_new q /\
  of_range range_new = QRangeVertex 4294967295 None None.
Proof.
  intros C. destruct (compile_kind c) as (q' & C' & K). rewrite C in C'. inversion C'; subst q'.
  unfold pipe_new, pipeq_new, pipe_property_new, propq_new. rewrite K. conj; reflexivity.
Qed.

Theorem C51_builds c names :
  (exists q, compile c = Some q) /\ (exists q, compile_properties c names = Some q) /\ (exists q, compile_count c = Some q) /\
  (exists q, compile_properties_count c names = Some q).
Proof.
  destruct (compile_kind c) as (q & E & K). unfold compile_properties_count, compile_count, compile_properties. rewrite E.
  unfold properties, propq_new, count, count_new. rewrite K. cbn [option_map]. rewrite prop_fold. cbn [of_prop output_type ppq_inner ppq_name].
  destruct (output_type q) as [[]|]; try discriminate; cbn; conj; eauto.
Qed.

Section Chains.
  Context {S : Type}.
  Variable ops : txn_ops S.
  Variable s : S.
  Variable g : graph.
  Variable tlt : ident -> ident -> Prop.
  Variable vmatch : json -> json -> Prop.
  Variable ixok : ident -> Prop.
  Variable bad : uuid -> Prop.
  Hypothesis T : type_order tlt.
  Hypothesis RO : reads_ok ops s g tlt vmatch ixok bad.

  Definition trusted (q : query) : Prop := forall n, In n (index_names q) -> indexed g n -> ixok n.
  Definition not_cut (c : chain) : Prop := forall c' n, In (c', n) (limits c) ->
    exists q v, compile c' = Some q /\ answer ops s q = Ok v /\ (lenN (elems_of v) < n)%N.

  Lemma selects_real c x : selects g vmatch c x -> match x with V v => is_vertex g v | E e => is_edge g e end.
  Proof.
    revert x. induction c; intros [v'|e']; cbn [selects]; intros; try tauto.
    all: try (match goal with H : selects _ _ _ _ /\ _ |- _ => apply (IHc _ (proj1 H)) end).
    all: apply (IHc _ H).
  Qed.

  Lemma answer_evals q v : trusted q -> answer ops s q = Ok v -> exists ex, evals tlt vmatch g q ex v.
  Proof.
    intros Tr A. unfold answer in A. destruct (db_get_ok T RO q Tr) as [(ex & w & E & V)|[(e & E & _)|(E & _)]]; rewrite E in A; try discriminate.
    rewrite rev_app_distr in A. cbn in A. inversion A; subst. eauto.
  Qed.
  Lemma typed_ok t x : type_ok t x <-> typed t x.
  Proof. unfold type_ok, typed. destruct t; split; intros H; [intros t' E; congruence|now apply H|discriminate|exact I]. Qed.
  Lemma has_some p (n : ident) : has p n <-> p n <> (None : option json).
  Proof. unfold has. split; [intros (x & ->); discriminate|]. destruct (p n) as [x|]; [eauto|congruence]. Qed.
  Lemma uncut {A} n (l : list A) : (lenN (limited n l) < n)%N -> limited n l = l.
  Proof.
    intros Hl. unfold limited in *. apply firstn_all2. destruct (Nat.le_gt_cases (length l) (N.to_nat n)) as [?|Gt]; [assumption|].
    unfold lenN in Hl. rewrite firstn_length_le in Hl by lia. lia.
  Qed.
  Lemma keeps_In {A} (P : A -> Prop) l l' x : keeps P l l' -> (In x l' <-> In x l /\ P x).
  Proof.
    intros K. split; [now apply keeps_incl|]. intros [Hx Px]. induction K as [|y l l' Py K IH|y l l' Ny K IH]; [destruct Hx| |].
    - destruct Hx as [->|Hx]; [now left|right; auto].
    - destruct Hx as [->|Hx]; [contradiction|auto].
  Qed.
  Lemma in_V l v : In (V v) (map V l) <-> In v l.
  Proof. rewrite in_map_iff. split; [intros (x & Ex & Hx); now inversion Ex; subst|eauto]. Qed.
  Lemma in_E l e : In (E e) (map E l) <-> In e l.
  Proof. rewrite in_map_iff. split; [intros (x & Ex & Hx); now inversion Ex; subst|eauto]. Qed.
  Lemma V_not_E l v : ~ In (V v) (map E l).
  Proof. rewrite in_map_iff. intros (x & Ex & _). discriminate. Qed.
  Lemma E_not_V l e : ~ In (E e) (map V l).
  Proof. rewrite in_map_iff. intros (x & Ex & _). discriminate. Qed.

  (** What a chain selects, hop by hop. *)
  Definition hop_selects (d : direction) (P : elem -> Prop) (t : option ident) (x : elem) : Prop :=
    match x with
    | E e => is_edge g e /\ (exists v, P (V v) /\ vid v = endpoint d e) /\ typed t (et e)
    | V v => is_vertex g v /\ (exists e, P (E e) /\ vid v = endpoint d e) /\ typed t (vt v)
    end.

  Definition right (P : elem -> Prop) (cut : Prop) (v : outv) : Prop :=
    is_elems v = true /\ (forall x, In x (elems_of v) -> P x) /\ (cut -> forall x, P x -> In x (elems_of v)).

  Lemma hop_right d lim t qi P cut v : (forall p, answer ops s qi = Ok p -> right P cut p) ->
    answer ops s (QPipe qi d lim t) = Ok v ->
    right (hop_selects d P t) ((lenN (elems_of v) < lim)%N /\ cut) v.
  Proof.
    intros IH A. rewrite (answer_stage T RO (QPipe qi d lim t) eq_refl) in A. destruct (answer ops s qi) as [p|e|] eqn:Ai; cbn [obind] in A; try discriminate.
    specialize (IH p eq_refl). destruct IH as (K & So & Co). cbn [stage_value] in A. destruct p as [vs|es| | |]; try discriminate; clear K; cbn [elems_of] in So, Co.
    - assert (lenN (@nil edge) <= lim)%N as L0 by (unfold lenN; cbn; lia). destruct (pipe_vertices_ok T RO d t vs [] L0) as (ls & F & Ep). rewrite Ep in A. cbn [omapo app] in A.
      replace (lim - lenN (@nil edge))%N with lim in A by (unfold lenN; cbn; lia). inversion A; subst v. clear A Ep. cbn [elems_of].
      assert (forall e, In e (concat ls) <-> is_edge g e /\ (exists w, In w vs /\ endpoint d e = vid w) /\ type_ok t (et e)) as Hc.
      { intros e. rewrite in_concat. clear - F. split.
        - intros (l & Hl & He). induction F as [|w l' vs ls [So Me] F IH]; [destruct Hl|]. destruct Hl as [->|Hl].
          + apply Me in He as (H1 & H2 & H3). conj; auto. exists w. split; [now left|assumption].
          + destruct (IH Hl) as (H1 & (w' & H2 & H3) & H4). conj; auto. exists w'. split; [now right|assumption].
        - intros (H1 & (w & Hw & H3) & H4). induction F as [|w' l' vs ls [So Me] F IH]; [destruct Hw|]. destruct Hw as [->|Hw].
          + exists l'. split; [now left|]. apply Me. auto.
          + destruct (IH Hw) as (l & Hl & He). exists l. split; [now right|assumption]. }
      unfold right. conj; [reflexivity| |].
      + intros [w|e] Hx; [now apply V_not_E in Hx|]. apply in_E in Hx. apply limited_In in Hx. apply Hc in Hx as (H1 & (w & Hw & H2) & H3).
        cbn. conj; [assumption| |now apply typed_ok]. exists w. split; [apply So; now apply in_V|now symmetry].
      + intros (Sz & Cu) [w|e] Hx; cbn [hop_selects] in Hx; destruct Hx as (H1 & (y & H2 & H3) & H4).
        * apply (Co Cu) in H2. now apply E_not_V in H2.
        * apply in_E. unfold lenN in Sz. rewrite map_length in Sz. rewrite (uncut (concat ls)) by exact Sz.
          apply Hc. conj; [assumption| |now apply typed_ok]. exists y. split; [|now symmetry]. apply in_V. now apply (Co Cu).
    - destruct (pipe_edges_ok RO d lim t es) as (l & F & Ep). rewrite Ep in A. cbn [omapo] in A. inversion A; subst v. clear A Ep. cbn [elems_of].
      assert (forall w, In w l <-> is_vertex g w /\ (exists e, In e es /\ vid w = endpoint d e) /\ type_ok t (vt w)) as Hc.
      { intros w. rewrite (keeps_In _ F), in_found, in_map_iff. split.
        - intros ((H1 & e & He & H2) & H3). conj; auto. exists e. split; [assumption|now symmetry].
        - intros (H1 & (e & He & H2) & H3). conj; auto. exists e. split; [now symmetry|assumption]. }
      unfold right. conj; [reflexivity| |].
      + intros [w|e] Hx; [|now apply E_not_V in Hx]. apply in_V in Hx. apply limited_In in Hx. apply Hc in Hx as (H1 & (e & He & H2) & H3).
        cbn. conj; [assumption| |now apply typed_ok]. exists e. split; [apply So; now apply in_E|assumption].
      + intros (Sz & Cu) [w|e] Hx; cbn [hop_selects] in Hx; destruct Hx as (H1 & (y & H2 & H3) & H4).
        * apply in_V. unfold lenN in Sz. rewrite map_length in Sz. rewrite (uncut l) by exact Sz.
          apply Hc. conj; [assumption| |now apply typed_ok]. exists y. split; [|assumption]. apply in_E. now apply (Co Cu).
        * apply (Co Cu) in H2. now apply V_not_E in H2.
  Qed.

  (** Filters. *)
  Lemma filter_right qi (q : query) (R P : elem -> Prop) (cut : Prop) (v : outv) : inner_of q = Some qi ->
    (forall p w, is_elems p = true -> stage_value ops s q p = Ok w -> is_elems w = true /\
       forall x, match x with V v => is_vertex g v | E e => is_edge g e end -> (In x (elems_of w) <-> In x (elems_of p) /\ R x)) ->
    (forall x, P x -> match x with V v => is_vertex g v | E e => is_edge g e end) ->
    (forall p w, is_elems p = true -> stage_value ops s q p = Ok w -> forall x, In x (elems_of w) -> In x (elems_of p)) ->
    (forall p, answer ops s qi = Ok p -> right P cut p) -> answer ops s q = Ok v -> right (fun x => P x /\ R x) cut v.
  Proof.
    intros Iq St Re Sub IH A. rewrite (answer_stage T RO q Iq) in A. destruct (answer ops s qi) as [p|e|] eqn:Ai; cbn [obind] in A; try discriminate.
    destruct (IH p eq_refl) as (K & So & Co). destruct (St p v K A) as [K' M]. unfold right. conj; [assumption| |].
    - intros x Hx. pose proof (Sub p v K A x Hx) as Hp. pose proof (So x Hp) as Px. split; [assumption|]. apply (M x (Re x Px)) in Hx. tauto.
    - intros Cu x [Px Rx]. apply (M x (Re x Px)). auto.
  Qed.

  Lemma lookup_ok {A} n (x : outcome (option (iter A))) Pl l : lookup g ixok n x Pl -> (indexed g n -> ixok n) -> indexed_or_err x = Ok l -> Pl l.
  Proof.
    intros [[-> _]|(l' & -> & I & K)] Ix E1; [discriminate|]. unfold indexed_or_err in E1. cbn in E1. rewrite collect_Ok in E1. inversion E1; subst. apply K. auto.
  Qed.
  Lemma stage_presence qi n ok : (indexed g n -> ixok n) -> forall p w, is_elems p = true -> stage_value ops s (QPipeWithPropertyPresence qi n ok) p = Ok w ->
    is_elems w = true /\ (forall x, In x (elems_of w) -> In x (elems_of p)) /\
    forall x, match x with V v => is_vertex g v | E e => is_edge g e end ->
      (In x (elems_of w) <-> In x (elems_of p) /\ flag_holds ok (prop_of g x n <> None)).
  Proof.
    intros Ix p w K A. cbn [stage_value] in A. destruct p as [vs|es| | |]; try discriminate.
    - destruct (indexed_or_err (t_vertex_ids_with_property ops s n)) as [l|e|] eqn:L; cbn [obind] in A; try discriminate.
      inversion A; subst w. pose proof (lookup_ok (ro_vindex RO n) Ix L) as Pl; cbn beta in Pl; cbn [elems_of]. conj; [reflexivity| |].
      + intros x Hx. apply in_map_iff in Hx as (v & <- & Hv). apply filter_In in Hv as [Hv _]. now apply in_V.
      + intros [v|e] Re; [|split; [intros Hx; now apply E_not_V in Hx|intros [Hx _]; now apply E_not_V in Hx]].
        rewrite !in_V, filter_In. apply and_iff_compat_l. rewrite (flagged_iff ok (P := has (vprop_fn g v) n)) by (rewrite contains_In; now apply Pl).
        unfold flag_holds. destruct ok; rewrite has_some; reflexivity.
    - destruct (indexed_or_err (t_edges_with_property ops s n)) as [l|e|] eqn:L; cbn [obind] in A; try discriminate.
      inversion A; subst w. pose proof (lookup_ok (ro_eindex RO n) Ix L) as Pl; cbn beta in Pl; cbn [elems_of]. conj; [reflexivity| |].
      + intros x Hx. apply in_map_iff in Hx as (v & <- & Hv). apply filter_In in Hv as [Hv _]. now apply in_E.
      + intros [v|e] Re; [split; [intros Hx; now apply V_not_E in Hx|intros [Hx _]; now apply V_not_E in Hx]|].
        rewrite !in_E, filter_In. apply and_iff_compat_l. rewrite (flagged_iff ok (P := has (eprop_fn g e) n)) by (rewrite contains_In; pose proof (Pl e); tauto).
        unfold flag_holds. destruct ok; rewrite has_some; reflexivity.
  Qed.
  Lemma stage_value_filter qi n y ok : (indexed g n -> ixok n) -> forall p w, is_elems p = true -> stage_value ops s (QPipeWithPropertyValue qi n y ok) p = Ok w ->
    is_elems w = true /\ (forall x, In x (elems_of w) -> In x (elems_of p)) /\
    forall x, match x with V v => is_vertex g v | E e => is_edge g e end ->
      (In x (elems_of w) <-> In x (elems_of p) /\ flag_holds ok (equals g vmatch x n y)).
  Proof.
    intros Ix p w K A. cbn [stage_value] in A. destruct p as [vs|es| | |]; try discriminate.
    - destruct (indexed_or_err (t_vertex_ids_with_property_value ops s n y)) as [l|e|] eqn:L; cbn [obind] in A; try discriminate.
      inversion A; subst w. pose proof (lookup_ok (ro_vindex_value RO n y) Ix L) as Pl; cbn beta in Pl; cbn [elems_of]. conj; [reflexivity| |].
      + intros x Hx. apply in_map_iff in Hx as (v & <- & Hv). apply filter_In in Hv as [Hv _]. now apply in_V.
      + intros [v|e] Re; [|split; [intros Hx; now apply E_not_V in Hx|intros [Hx _]; now apply E_not_V in Hx]].
        rewrite !in_V, filter_In. apply and_iff_compat_l. rewrite (flagged_iff ok (P := has_value vmatch (vprop_fn g v) n y)) by (rewrite contains_In; now apply Pl).
        reflexivity.
    - destruct (indexed_or_err (t_edges_with_property_value ops s n y)) as [l|e|] eqn:L; cbn [obind] in A; try discriminate.
      inversion A; subst w. pose proof (lookup_ok (ro_eindex_value RO n y) Ix L) as Pl; cbn beta in Pl; cbn [elems_of]. conj; [reflexivity| |].
      + intros x Hx. apply in_map_iff in Hx as (v & <- & Hv). apply filter_In in Hv as [Hv _]. now apply in_E.
      + intros [v|e] Re; [split; [intros Hx; now apply V_not_E in Hx|intros [Hx _]; now apply V_not_E in Hx]|].
        rewrite !in_E, filter_In. apply and_iff_compat_l. rewrite (flagged_iff ok (P := has_value vmatch (eprop_fn g e) n y)) by (rewrite contains_In; pose proof (Pl e); tauto).
        reflexivity.
  Qed.

  Lemma right_iff (P P' : elem -> Prop) (cut cut' : Prop) (v : outv) : (forall x, P x <-> P' x) -> (cut' -> cut) -> right P cut v -> right P' cut' v.
  Proof. intros HP HC (K & So & Co). unfold right. conj; [assumption| |]; intros; [apply HP; auto|apply Co; [auto|now apply HP]]. Qed.
  Lemma limited_range lim (l : list vertex) (P : elem -> Prop) :
    (forall x, In x (map V l) <-> P x) -> right P (lenN (elems_of (Vertices (limited lim l))) < lim)%N (Vertices (limited lim l)).
  Proof.
    intros HP. unfold right. cbn [elems_of]. conj; [reflexivity| |].
    - intros [v|e] Hx; [|now apply E_not_V in Hx]. apply in_V, limited_In in Hx. apply HP. now apply in_V.
    - unfold lenN. rewrite map_length. intros Sz. rewrite (uncut l) by exact Sz. intros x Px. now apply HP.
  Qed.

  Lemma leaf_v l (P : elem -> Prop) (cut : Prop) : (forall v, In v l <-> P (V v)) -> (forall e, ~ P (E e)) -> right P cut (Vertices l).
  Proof.
    intros HV HE. unfold right. cbn [elems_of]. conj; [reflexivity| |].
    - intros [v|e] Hx; [|now apply E_not_V in Hx]. apply in_V in Hx. now apply HV.
    - intros _ [v|e] Px; [|now apply HE in Px]. apply in_V. now apply HV.
  Qed.
  Lemma leaf_e l (P : elem -> Prop) (cut : Prop) : (forall e, In e l <-> P (E e)) -> (forall v, ~ P (V v)) -> right P cut (Edges l).
  Proof.
    intros HE HV. unfold right. cbn [elems_of]. conj; [reflexivity| |].
    - intros [v|e] Hx; [now apply V_not_E in Hx|]. apply in_E in Hx. now apply HE.
    - intros _ [v|e] Px; [now apply HV in Px|]. apply in_E. now apply HE.
  Qed.

  Theorem chain_right c : forall q v, compile c = Some q -> trusted q -> answer ops s q = Ok v -> right (selects g vmatch c) (not_cut c) v.
  Proof.
    induction c; intros q v C Tr A.
    (* leaves *)
    1-11: cbn [compile] in C; inversion C; subst q; clear C; destruct (answer_evals Tr A) as (ex & Ev).
    - inversion Ev; subst; match goal with X : listing _ _ _ |- _ => destruct X as [_ M] end. apply leaf_v; [exact M|intros e []].
    - rewrite range_fold in *. unfold of_range in *. cbn [rq_limit rq_t rq_start] in *.
      inversion Ev; subst; match goal with X : listing _ _ _ |- _ => destruct X as [_ M] end.
      eapply right_iff; [reflexivity| |apply limited_range with (P := selects g vmatch (CRange sets))].
      + intros NC. destruct (NC (CRange sets) (final_limit (final rset_limit sets))) as (q' & v' & C' & A' & Sz); [now left|].
        cbn [compile] in C'. rewrite range_fold in C'. inversion C'; subst q'. unfold of_range in A'. cbn [rq_limit rq_t rq_start] in A'. rewrite A in A'. inversion A'; subst. exact Sz.
      + intros [w|e]; [|split; [intros Hx; now apply E_not_V in Hx|intros []]]. rewrite in_V. cbn [selects]. rewrite M, typed_ok.
        apply and_iff_compat_l, and_iff_compat_l. destruct (final rset_start sets) as [id|]; split; intros; try congruence; try discriminate; auto.
    - inversion Ev; subst. apply leaf_v; [|intros e []]. intros w. rewrite in_found. reflexivity.
    - inversion Ev; subst. apply leaf_v; [|intros e []]. intros w. rewrite in_found. cbn [selects In]. split; [intros [? [?|[]]]; auto|intros [? ?]; auto].
    - inversion Ev; subst; match goal with X : forall _, In _ _ <-> _ |- _ => rename X into M end. apply leaf_v; [|intros e []]. intros w. rewrite M, has_some. reflexivity.
    - inversion Ev; subst; match goal with X : forall _, In _ _ <-> _ |- _ => rename X into M end. apply leaf_v; [|intros e []]. intros w. rewrite M. reflexivity.
    - inversion Ev; subst; match goal with X : listing _ _ _ |- _ => destruct X as [_ M] end. apply leaf_e; [exact M|intros e []].
    - inversion Ev; subst; match goal with X : keeps _ _ _ |- _ => rename X into M end. apply leaf_e; [|intros w []]. intros e. rewrite (keeps_In _ M). cbn [selects]. tauto.
    - inversion Ev; subst; match goal with X : keeps _ _ _ |- _ => rename X into M end. apply leaf_e; [|intros w []]. intros e'. rewrite (keeps_In _ M). cbn [selects In]. split; [intros [[->|[]] ?]; auto|intros [? ->]; auto].
    - inversion Ev; subst; match goal with X : forall _, In _ _ <-> _ |- _ => rename X into M end. apply leaf_e; [|intros w []]. intros w. rewrite M, has_some. reflexivity.
    - inversion Ev; subst; match goal with X : forall _, In _ _ <-> _ |- _ => rename X into M end. apply leaf_e; [|intros w []]. intros w. rewrite M. reflexivity.
    (* stages *)
    - destruct (compile_kind c) as (qi & Ci & Ki). destruct (C51_settings [] c sets Ci) as (_ & Co & _). rewrite Co in C. inversion C; subst q.
      eapply right_iff; [| |eapply hop_right with (P := selects g vmatch c) (cut := not_cut c)]; [| | |exact A].
      + intros [w|e]; cbn [selects hop_selects endpoint]; reflexivity.
      + intros NC. split; [|intros c' n Hin; apply NC; now right].
        destruct (NC (COut c sets) (final_limit (final pset_limit sets))) as (q' & v' & C' & A' & Sz); [now left|]. rewrite Co in C'. inversion C'; subst q'.
        rewrite A in A'. inversion A'; subst. exact Sz.
      + intros p Ap. apply (IHc qi p Ci); [exact Tr|assumption].
    - destruct (compile_kind c) as (qi & Ci & Ki). destruct (C51_settings [] c sets Ci) as (_ & _ & Co). rewrite Co in C. inversion C; subst q.
      eapply right_iff; [| |eapply hop_right with (P := selects g vmatch c) (cut := not_cut c)]; [| | |exact A].
      + intros [w|e]; cbn [selects hop_selects endpoint]; reflexivity.
      + intros NC. split; [|intros c' n Hin; apply NC; now right].
        destruct (NC (CIn c sets) (final_limit (final pset_limit sets))) as (q' & v' & C' & A' & Sz); [now left|]. rewrite Co in C'. inversion C'; subst q'.
        rewrite A in A'. inversion A'; subst. exact Sz.
      + intros p Ap. apply (IHc qi p Ci); [exact Tr|assumption].
    - destruct (compile_kind c) as (qi & Ci & Ki). cbn [compile] in C. rewrite Ci in C. unfold with_property, pipe_presence_new in C. rewrite Ki in C. inversion C; subst q.
      pose proof (stage_presence qi (n := n) true (Tr n (or_introl eq_refl))) as SP.
      eapply filter_right with (qi := qi) (R := fun x => prop_of g x n <> None); [| | | | |exact A]; [reflexivity| | | |].
      + intros p w K E. destruct (SP p w K E) as (K' & _ & M). split; assumption.
      + intros x. apply selects_real.
      + intros p w K E. now destruct (SP p w K E) as (_ & Su & _).
      + intros p Ap. apply (IHc qi p Ci); [intros m Hm; apply Tr; now right|assumption].
    - destruct (compile_kind c) as (qi & Ci & Ki). cbn [compile] in C. rewrite Ci in C. unfold without_property, pipe_presence_new in C. rewrite Ki in C. inversion C; subst q.
      pose proof (stage_presence qi (n := n) false (Tr n (or_introl eq_refl))) as SP.
      eapply filter_right with (qi := qi) (R := fun x => prop_of g x n = None); [| | | | |exact A]; [reflexivity| | | |].
      + intros p w K E. destruct (SP p w K E) as (K' & _ & M). split; [assumption|]. intros x Hx. rewrite (M x Hx). cbn [flag_holds].
        destruct (prop_of g x n); split; intros [? ?]; split; auto; try discriminate. exfalso. now apply H0.
      + intros x. apply selects_real.
      + intros p w K E. now destruct (SP p w K E) as (_ & Su & _).
      + intros p Ap. apply (IHc qi p Ci); [intros m Hm; apply Tr; now right|assumption].
    - destruct (compile_kind c) as (qi & Ci & Ki). cbn [compile] in C. rewrite Ci in C. unfold with_property_equal_to, pipe_value_new in C. rewrite Ki in C. inversion C; subst q.
      pose proof (stage_value_filter qi (n := n) x true (Tr n (or_introl eq_refl))) as SP.
      eapply filter_right with (qi := qi) (R := fun y => equals g vmatch y n x); [| | | | |exact A]; [reflexivity| | | |].
      + intros p w K E. destruct (SP p w K E) as (K' & _ & M). split; assumption.
      + intros y. apply selects_real.
      + intros p w K E. now destruct (SP p w K E) as (_ & Su & _).
      + intros p Ap. apply (IHc qi p Ci); [intros m Hm; apply Tr; now right|assumption].
    - destruct (compile_kind c) as (qi & Ci & Ki). cbn [compile] in C. rewrite Ci in C. unfold with_property_not_equal_to, pipe_value_new in C. rewrite Ki in C. inversion C; subst q.
      pose proof (stage_value_filter qi (n := n) x false (Tr n (or_introl eq_refl))) as SP.
      eapply filter_right with (qi := qi) (R := fun y => ~ equals g vmatch y n x); [| | | | |exact A]; [reflexivity| | | |].
      + intros p w K E. destruct (SP p w K E) as (K' & _ & M). split; assumption.
      + intros y. apply selects_real.
      + intros p w K E. now destruct (SP p w K E) as (_ & Su & _).
      + intros p Ap. apply (IHc qi p Ci); [intros m Hm; apply Tr; now right|assumption].
    - destruct (compile_kind c) as (qi & Ci & Ki). cbn [compile] in C. rewrite Ci in C. inversion C; subst q.
      rewrite (answer_stage T RO (include qi) eq_refl) in A. destruct (answer ops s qi) as [p|e|] eqn:Ai; cbn [obind] in A; try discriminate. inversion A; subst p.
      apply (IHc qi v Ci); [exact Tr|assumption].
  Qed.

  Lemma looks c : forall q, compile c = Some q -> index_names q = looked_up c.
  Proof.
    induction c; cbn [compile looked_up]; intros q C; try (inversion C; reflexivity).
    - destruct (compile_kind c) as (qi & Ci & Ki). destruct (C51_settings [] c sets Ci) as (_ & Co & _). cbn [compile] in Co. rewrite Co in C. inversion C. cbn [index_names]. auto.
    - destruct (compile_kind c) as (qi & Ci & Ki). destruct (C51_settings [] c sets Ci) as (_ & _ & Co). cbn [compile] in Co. rewrite Co in C. inversion C. cbn [index_names]. auto.
    - destruct (compile_kind c) as (qi & Ci & Ki). rewrite Ci in C. unfold with_property, pipe_presence_new in C. rewrite Ki in C. inversion C; subst. cbn [index_names]. now rewrite (IHc qi Ci).
    - destruct (compile_kind c) as (qi & Ci & Ki). rewrite Ci in C. unfold without_property, pipe_presence_new in C. rewrite Ki in C. inversion C; subst. cbn [index_names]. now rewrite (IHc qi Ci).
    - destruct (compile_kind c) as (qi & Ci & Ki). rewrite Ci in C. unfold with_property_equal_to, pipe_value_new in C. rewrite Ki in C. inversion C; subst. cbn [index_names]. now rewrite (IHc qi Ci).
    - destruct (compile_kind c) as (qi & Ci & Ki). rewrite Ci in C. unfold with_property_not_equal_to, pipe_value_new in C. rewrite Ki in C. inversion C; subst. cbn [index_names]. now rewrite (IHc qi Ci).
    - destruct (compile_kind c) as (qi & Ci & Ki). rewrite Ci in C. inversion C; subst. cbn [index_names include include_new]. auto.
  Qed.

  (** A chain over indexed names has an answer. *)
  Definition answered (c : chain) (q : query) : Prop :=
    (exists v, answer ops s q = Ok v) \/ (answer ops s q = Err NotIndexed /\ exists n, In n (looked_up c) /\ ~ indexed g n).

  Lemma leaf_answered q c n : trusted q -> inner_of q = None -> (forall m, index_of q = Some m -> In m (looked_up c)) -> n = q -> answered c q.
  Proof.
    intros Tr L I _. unfold answered, answer. destruct (db_get_ok T RO q Tr) as [(ex & v & -> & _)|[(e & -> & F)|(-> & B)]].
    - left. rewrite rev_app_distr. cbn. eauto.
    - right. inversion F; subst; try congruence. eauto.
    - exfalso. inversion B; subst; cbn [inner_of] in L; congruence.
  Qed.
  Lemma lookup_cases {A} n (x : outcome (option (iter A))) Pl : lookup g ixok n x Pl ->
    (exists l, indexed_or_err x = Ok l) \/ (indexed_or_err x = Err NotIndexed /\ ~ indexed g n).
  Proof. intros [[-> Ni]|(l & -> & Hi & _)]; unfold indexed_or_err; cbn; [right; auto|]. rewrite collect_Ok. eauto. Qed.
  Lemma hop_answered c qi d lim t : answered c qi -> (forall p, answer ops s qi = Ok p -> is_elems p = true) ->
    answered c (QPipe qi d lim t).
  Proof.
    intros [(p & Ap)|(Ap & N)] K; unfold answered; rewrite (answer_stage T RO (QPipe qi d lim t) eq_refl), Ap; cbn [obind]; [left|right; auto].
    specialize (K p Ap). cbn [stage_value]. destruct p as [vs|es| | |]; try discriminate.
    - assert (lenN (@nil edge) <= lim)%N as L0 by (unfold lenN; cbn; lia). destruct (pipe_vertices_ok T RO d t vs [] L0) as (ls & _ & ->). cbn [omapo]. eauto.
    - destruct (pipe_edges_ok RO d lim t es) as (l & _ & ->). cbn [omapo]. eauto.
  Qed.
  Lemma presence_answered c qi n ok : answered c qi -> (forall p, answer ops s qi = Ok p -> is_elems p = true) ->
    answered (CWith c n) (QPipeWithPropertyPresence qi n ok).
  Proof.
    intros [(p & Ap)|(Ap & m & Hm & N)] K; unfold answered; rewrite (answer_stage T RO (QPipeWithPropertyPresence qi n ok) eq_refl), Ap; cbn [obind].
    2: { right. split; [reflexivity|]. exists m. split; [now right|assumption]. }
    specialize (K p Ap). cbn [stage_value]. destruct p as [vs|es| | |]; try discriminate.
    - destruct (lookup_cases (ro_vindex RO n)) as [(l & ->)|(-> & Ni)]; cbn [obind]; [eauto|]. right. split; [reflexivity|]. exists n. split; [now left|assumption].
    - destruct (lookup_cases (ro_eindex RO n)) as [(l & ->)|(-> & Ni)]; cbn [obind]; [eauto|]. right. split; [reflexivity|]. exists n. split; [now left|assumption].
  Qed.
  Lemma value_answered c qi n y ok : answered c qi -> (forall p, answer ops s qi = Ok p -> is_elems p = true) ->
    answered (CWith c n) (QPipeWithPropertyValue qi n y ok).
  Proof.
    intros [(p & Ap)|(Ap & m & Hm & N)] K; unfold answered; rewrite (answer_stage T RO (QPipeWithPropertyValue qi n y ok) eq_refl), Ap; cbn [obind].
    2: { right. split; [reflexivity|]. exists m. split; [now right|assumption]. }
    specialize (K p Ap). cbn [stage_value]. destruct p as [vs|es| | |]; try discriminate.
    - destruct (lookup_cases (ro_vindex_value RO n y)) as [(l & ->)|(-> & Ni)]; cbn [obind]; [eauto|]. right. split; [reflexivity|]. exists n. split; [now left|assumption].
    - destruct (lookup_cases (ro_eindex_value RO n y)) as [(l & ->)|(-> & Ni)]; cbn [obind]; [eauto|]. right. split; [reflexivity|]. exists n. split; [now left|assumption].
  Qed.

  Theorem chain_answered c : forall q, compile c = Some q -> trusted q -> answered c q.
  Proof.
    induction c; intros q C Tr.
    1-11: cbn [compile] in C; inversion C; subst q; clear C; eapply leaf_answered; [exact Tr|reflexivity| |reflexivity];
      cbn [index_of looked_up]; intros m E; inversion E; subst; now left.
    - destruct (compile_kind c) as (qi & Ci & Ki). destruct (C51_settings [] c sets Ci) as (_ & Co & _). rewrite Co in C. inversion C; subst q.
      eapply hop_answered; [exact (IHc qi Ci Tr)|]. intros p Ap. now destruct (chain_right c Ci Tr Ap).
    - destruct (compile_kind c) as (qi & Ci & Ki). destruct (C51_settings [] c sets Ci) as (_ & _ & Co). rewrite Co in C. inversion C; subst q.
      eapply hop_answered; [exact (IHc qi Ci Tr)|]. intros p Ap. now destruct (chain_right c Ci Tr Ap).
    - destruct (compile_kind c) as (qi & Ci & Ki). cbn [compile] in C. rewrite Ci in C. unfold with_property, pipe_presence_new in C. rewrite Ki in C. inversion C; subst q.
      assert (trusted qi) as Ti by (intros m Hm; apply Tr; now right). apply presence_answered; [exact (IHc qi Ci Ti)|]. intros p Ap. now destruct (chain_right c Ci Ti Ap).
    - destruct (compile_kind c) as (qi & Ci & Ki). cbn [compile] in C. rewrite Ci in C. unfold without_property, pipe_presence_new in C. rewrite Ki in C. inversion C; subst q.
      assert (trusted qi) as Ti by (intros m Hm; apply Tr; now right). apply presence_answered; [exact (IHc qi Ci Ti)|]. intros p Ap. now destruct (chain_right c Ci Ti Ap).
    - destruct (compile_kind c) as (qi & Ci & Ki). cbn [compile] in C. rewrite Ci in C. unfold with_property_equal_to, pipe_value_new in C. rewrite Ki in C. inversion C; subst q.
      assert (trusted qi) as Ti by (intros m Hm; apply Tr; now right). apply value_answered; [exact (IHc qi Ci Ti)|]. intros p Ap. now destruct (chain_right c Ci Ti Ap).
    - destruct (compile_kind c) as (qi & Ci & Ki). cbn [compile] in C. rewrite Ci in C. unfold with_property_not_equal_to, pipe_value_new in C. rewrite Ki in C. inversion C; subst q.
      assert (trusted qi) as Ti by (intros m Hm; apply Tr; now right). apply value_answered; [exact (IHc qi Ci Ti)|]. intros p Ap. now destruct (chain_right c Ci Ti Ap).
    - destruct (compile_kind c) as (qi & Ci & Ki). cbn [compile] in C. rewrite Ci in C. inversion C; subst q.
      destruct (IHc qi Ci Tr) as [(v & Av)|(Av & N)]; unfold answered; rewrite (answer_stage T RO (include qi) eq_refl), Av; cbn [obind]; [left; exists v; reflexivity|right; auto].
  Qed.

  (** Counting. *)
  Lemma chain_count c q qc v : compile c = Some q -> compile_count c = Some qc -> trusted q -> answer ops s q = Ok v ->
    answer ops s qc = Ok (Count (lenN (elems_of v))).
  Proof.
    intros C Cc Tr A. destruct (compile_kind c) as (q' & C' & K). rewrite C in C'. inversion C'; subst q'.
    unfold compile_count in Cc. rewrite C in Cc. unfold count, count_new in Cc.
    assert (qc = QCount q) as ->. { destruct (output_type q) as [[]|]; try discriminate; now inversion Cc. }
    rewrite (answer_stage T RO (QCount q) eq_refl), A. cbn [obind stage_value]. destruct (chain_right c C Tr A) as (Kv & _).
    destruct v; try discriminate; cbn [out_size elems_of]; unfold lenN; rewrite map_length; reflexivity.
  Qed.

  Lemma combine_has {A B} (R : A -> B -> Prop) l1 l2 a : Forall2 R l1 l2 -> In a l1 -> exists b, In (a, b) (combine l1 l2) /\ R a b.
  Proof.
    induction 1 as [|a' b l1 l2 Rab F IH]; [intros []|]. intros [->|Hin]; cbn [combine].
    - exists b. split; [now left|assumption].
    - destruct (IH Hin) as (b' & H1 & H2). exists b'. split; [now right|assumption].
  Qed.
  Lemma combine_rel {A B} (R : A -> B -> Prop) l1 l2 a b : Forall2 R l1 l2 -> In (a, b) (combine l1 l2) -> In a l1 /\ R a b.
  Proof.
    induction 1 as [|a' b' l1 l2 Rab F IH]; [intros []|]. intros [E|Hin]; [inversion E; subst; split; [now left|assumption]|].
    destruct (IH Hin). split; [now right|assumption].
  Qed.

  Lemma chain_properties c names q qp v w : compile c = Some q -> compile_properties c names = Some qp -> trusted q ->
    answer ops s q = Ok v -> answer ops s qp = Ok w ->
    forall x n y, reported w x n y <-> In x (elems_of v) /\ prop_of g x n = Some y /\ (forall n', final Some names = Some n' -> n = n').
  Proof.
    intros C Cp Tr A Ap. destruct (compile_kind c) as (q' & C' & K). rewrite C in C'. inversion C'; subst q'.
    unfold compile_properties in Cp. rewrite C in Cp. unfold properties, propq_new in Cp. rewrite K in Cp. cbn [option_map] in Cp. rewrite prop_fold in Cp. inversion Cp; subst qp.
    unfold of_prop in Ap. cbn [ppq_inner ppq_name] in Ap. rewrite (answer_stage T RO (QPipeProperty q (final Some names)) eq_refl), A in Ap. cbn [obind stage_value] in Ap.
    destruct (chain_right c C Tr A) as (Kv & So & _). revert Ap. clear Cp. generalize (final Some names). intros name Ap.
    assert (forall (p : ident -> option json) ps, props_at p name ps ->
      forall n y, In (NProp n y) ps <-> p n = Some y /\ (forall n', name = Some n' -> n = n')) as PA.
    { intros p ps [_ M] n y. rewrite M. cbn. apply and_iff_compat_l. destruct name; split; intros; try congruence; try discriminate; auto. }
    destruct v as [vs|es| | |]; try discriminate; cbn [elems_of].
    - destruct (props_of_vertices ops s name vs) as [l|e|] eqn:El; try discriminate. cbn [omapo] in Ap. inversion Ap; subst w. clear Ap.
      assert (exists pss, Forall2 (fun v ps => props_at (vprop_fn g v) name ps) vs pss /\ l = flat_map nonempty_v (combine vs pss)) as (pss & F & ->).
      { destruct (forall_bad_dec RO vs) as [D|D].
        - destruct (props_of_vertices_ok RO (name := name) (vs := vs)) as (pss & F & E); [auto|]. rewrite E in El. inversion El. eauto.
        - destruct name as [n0|].
          + destruct (@props_of_vertices_ok _ _ _ _ _ _ _ _ RO (Some n0) vs) as (pss & F & E); [discriminate|]. rewrite E in El. inversion El. eauto.
          + rewrite (props_of_vertices_bad RO D) in El. discriminate. }
      intros x n y. split.
      + intros Rp. cbn [reported] in Rp. destruct Rp as (p & Hp & Ex & Hn). apply in_flat_map in Hp as ([v' ps] & Hc & Hne). destruct (@combine_rel _ _ _ _ _ _ _ F Hc) as [Hv Hps].
        unfold nonempty_v in Hne. cbn in Hne. destruct ps as [|p1 ps]; [destruct Hne|]. destruct Hne as [<-|[]]. cbn in Ex, Hn. subst x.
        split; [now apply in_V|]. now apply (PA _ _ Hps).
      + intros (Hx & Hp). destruct x as [v'|e]; [|now apply E_not_V in Hx]. apply in_V in Hx. destruct (@combine_has _ _ _ _ _ _ F Hx) as (ps & Hc & Hps). cbn [reported].
        apply (PA _ _ Hps) in Hp. exists (VProps v' ps). conj; [|reflexivity|assumption]. apply in_flat_map. exists (v', ps). split; [assumption|]. unfold nonempty_v. cbn.
        destruct ps; [destruct Hp|now left].
    - destruct (props_of_edges_ok RO name es) as (pss & F & El). rewrite El in Ap. cbn [omapo] in Ap. inversion Ap; subst w. clear Ap.
      intros x n y. split.
      + intros Rp. cbn [reported] in Rp. destruct Rp as (p & Hp & Ex & Hn). apply in_flat_map in Hp as ([v' ps] & Hc & Hne). destruct (@combine_rel _ _ _ _ _ _ _ F Hc) as [Hv Hps].
        unfold nonempty_e in Hne. cbn in Hne. destruct ps as [|p1 ps]; [destruct Hne|]. destruct Hne as [<-|[]]. cbn in Ex, Hn. subst x.
        split; [now apply in_E|]. now apply (PA _ _ Hps).
      + intros (Hx & Hp). destruct x as [v'|e]; [now apply V_not_E in Hx|]. apply in_E in Hx. destruct (@combine_has _ _ _ _ _ _ F Hx) as (ps & Hc & Hps). cbn [reported].
        apply (PA _ _ Hps) in Hp. exists (EProps e ps). conj; [|reflexivity|assumption]. apply in_flat_map. exists (e, ps). split; [assumption|]. unfold nonempty_e. cbn.
        destruct ps; [destruct Hp|now left].
  Qed.
End Chains.

(** ** The backends *)

(** What a chain's answer is worth.  [like stored asked]: the stored value counts
    as the one asked for. *)
Definition honest {S} (ops : txn_ops S) (s : S) (g : graph) (like : json -> json -> Prop) (c : chain) (q : query) : Prop :=
  (* it is answered, unless it looks up a name without an index; *)
  ((exists v, answer ops s q = Ok v) \/ (answer ops s q = Err NotIndexed /\ exists n, In n (looked_up c) /\ get n (gix g) = None)) /\
  forall v, answer ops s q = Ok v ->
  (* everything in the answer was asked for, *)
  (forall x, In x (elems_of v) -> selects g like c x) /\
  (* everything asked for is in it, if no step of the chain reached its limit, *)
  (not_cut ops s c -> forall x, selects g like c x -> In x (elems_of v)) /\
  (* its count is the number of elements in it, *)
  (forall qc, compile_count c = Some qc -> answer ops s qc = Ok (Count (lenN (elems_of v)))) /\
  (* and its properties are those of the elements in it. *)
  (forall names qp w, compile_properties c names = Some qp -> answer ops s qp = Ok w ->
    forall x n y, reported w x n y <-> In x (elems_of v) /\ prop_of g x n = Some y /\ (forall n', final Some names = Some n' -> n = n')).

Lemma chain_honest S (ops : txn_ops S) s g tlt like ixok bad c q : type_order tlt -> reads_ok ops s g tlt like ixok bad ->
  compile c = Some q -> (forall n, In n (looked_up c) -> indexed g n -> ixok n) -> honest ops s g like c q.
Proof.
  intros T RO C Ix. assert (trusted g ixok q) as Tr by (intros n Hn; apply Ix; now rewrite <- (looks c C)).
  unfold honest. split.
  - destruct (chain_answered T RO c C Tr) as [?|(E & n & Hn & Ni)]; [now left|right]. split; [assumption|]. exists n. split; [assumption|].
    unfold indexed in Ni. apply mem_false. now destruct (mem n (gix g)).
  - intros v A. destruct (chain_right T RO c C Tr A) as (_ & So & Co). conj; auto.
    + intros qc Cc. exact (chain_count T RO c C Cc Tr A).
    + intros names qp w Cp Ap. exact (chain_properties T RO c names C Cp Tr A Ap).
Qed.

(** In memory, any build, any history: chains that look up no index. *)
Theorem C51_memory_chain dbg h m ord c q : mem_run dbg h = Some m -> compile c = Some q -> looked_up c = [] ->
  honest (mem_ops dbg ord) m (gof m) vm c q.
Proof.
  intros R C L. apply (chain_honest _ lex_order (run_reads dbg h R ord) C). rewrite L. intros n [].
Qed.
(** In memory, debug builds: all chains. *)
Theorem C51_memory_debug_chain h m ord c q : mem_run true h = Some m -> tidy_history true h -> compile c = Some q ->
  honest (mem_ops true ord) m (gof m) vm c q.
Proof.
  intros R Ti C. apply (chain_honest _ lex_order (run_reads true h R ord) C). intros n _ _. now apply tidy_exact with (h := h).
Qed.
(** RocksDB: all chains; values are compared by their 64-bit hash. *)
Theorem C51_rocksdb_chain H enc dec h env c q : rtidy_history H enc dec h -> compile c = Some q ->
  honest (rdb_ops H enc dec env) (rdb_run H enc dec h) (rgof dec (rdb_run H enc dec h)) (hm H) c q.
Proof.
  intros Ti C. destruct (run_rtidy Ti) as (L & R & X & NO & _). rewrite (rgof_rep _ R).
  apply (chain_honest _ slt_order (rdb_reads_ok _ R env) C). intros n _ Hi. eapply exact_rix; eauto.
Qed.

(** ** Directions as text *)
Theorem C51_direction_text d s : direction_from_str s = Some d <-> s = direction_to_string d.
Proof.
  assert (text_outbound <> text_inbound) as N by (intros E; discriminate E).
  unfold direction_from_str. destruct (list_eq_dec Byte.byte_eq_dec s text_outbound) as [->|N1].
  - destruct d; cbn [direction_to_string]; split; intros E; try reflexivity; try discriminate E; congruence.
  - destruct (list_eq_dec Byte.byte_eq_dec s text_inbound) as [->|N2]; destruct d; cbn [direction_to_string]; split; intros E;
      try reflexivity; try discriminate E; try congruence.
Qed.
Theorem C51_direction_spelling : direction_to_string Outbound = String.list_byte_of_string "outbound" /\
  direction_to_string Inbound = String.list_byte_of_string "inbound".
Proof. split; reflexivity. Qed.

(** ** A concrete program

    Whom do people called bob point at?  And which edges, whose [name] is not
    bob, leave vertex 1? *)
Definition bobs_friends : chain := CIn (COut (CVerticesWithValue n_name j_bob) [PsLimit 7; PsLimit 5]) [].
Definition other_edges : chain := CNotEqual (COut (CVertex u1) []) n_name j_bob.
Example bobs_friends_mem : exists q1 q2, compile bobs_friends = Some q1 /\ compile other_edges = Some q2 /\
  tidy_history true (calls h_people) /\
  exists m, mem_run true (calls h_people) = Some m /\
  answer (mem_ops true id_order) m q1 = Ok (Vertices [v2]) /\ answer (mem_ops true id_order) m q2 = Ok (Edges [e12]).
Proof.
  eexists; eexists. split; [reflexivity|]. split; [reflexivity|]. split; [apply api_tidy; reflexivity|]. apply run_with. vm_compute. auto.
Qed.
Example bobs_friends_uncut : forall m, mem_run true (calls h_people) = Some m -> not_cut (mem_ops true id_order) m bobs_friends.
Proof.
  intros m R c' n Hin. assert (exists m', mem_run true (calls h_people) = Some m' /\
    answer (mem_ops true id_order) m' (QPipe (QPipe (QVertexWithPropertyValue n_name j_bob) Outbound 5 None) Inbound u32_max None) = Ok (Vertices [v2]) /\
    answer (mem_ops true id_order) m' (QPipe (QVertexWithPropertyValue n_name j_bob) Outbound 5 None) = Ok (Edges [e12])) as (m' & R' & A1 & A2)
    by (apply run_with; vm_compute; auto). rewrite R in R'. inversion R'; subst m'.
  destruct Hin as [E|[E|[]]]; inversion E; subst.
  - exists (QPipe (QPipe (QVertexWithPropertyValue n_name j_bob) Outbound 5 None) Inbound u32_max None), (Vertices [v2]). conj; [reflexivity|assumption|reflexivity].
  - exists (QPipe (QVertexWithPropertyValue n_name j_bob) Outbound 5 None), (Edges [e12]). conj; [reflexivity|assumption|reflexivity].
Qed.
Example bobs_friends_rdb : exists q, compile bobs_friends = Some q /\
  rtidy_history hash0 enc0 dec0 (ok_calls h_people) /\
  answer ops0 (run0 (ok_calls h_people)) q = Ok (Vertices [v2]).
Proof.
  eexists. split; [reflexivity|]. split; [apply api_rtidy; [good0|apply ok_steady|reflexivity]|]. vm_compute. reflexivity.
Qed.
