(** * Calls that may be repeated.

    The specification for C54: which calls leave the graph alone when they are
    made a second time.  Nothing here depends on a backend. *)
From Verif Require Import Base OMap Json Types Util Db Spec QueryFacts SpecFacts RdbSpec Agree MemFacts Claims PropsRdb.

Set Implicit Arguments.

(** How many elements the result of [q] can have in [g], its limits aside. *)
Fixpoint most (g : graph) (q : query) : N :=
  match q with
  | QAllVertex | QRangeVertex _ _ _ | QVertexWithPropertyPresence _ | QVertexWithPropertyValue _ _ => size (gv g)
  | QAllEdge | QEdgeWithPropertyPresence _ | QEdgeWithPropertyValue _ _ => size (ge g)
  | QSpecificVertex ids => lenN ids
  | QSpecificEdge es => lenN es
  | QPipe i _ _ _ => most g i * (size (ge g) + 1)
  | QPipeProperty i _ | QPipeWithPropertyPresence i _ _ | QPipeWithPropertyValue i _ _ _ | QInclude i | QCount i => most g i
  end.

(** The limits of [q] cut nothing off in [g]. *)
Fixpoint roomy (g : graph) (q : query) : Prop :=
  match q with
  | QRangeVertex limit _ _ => (size (gv g) <= limit)%N
  | QPipe i _ limit _ => (most g i * (size (ge g) + 1) <= limit)%N /\ roomy g i
  | QPipeProperty i _ | QPipeWithPropertyPresence i _ _ | QPipeWithPropertyValue i _ _ _ | QInclude i | QCount i => roomy g i
  | _ => True
  end.

(** The names of the properties [q] selects, if it selects properties:
    [Some None] is every name. *)
Fixpoint selects (q : query) : option (option ident) :=
  match q with
  | QPipeProperty _ name => Some name
  | QInclude i => selects i
  | _ => None
  end.

(** No vertex item comes after an edge item. *)
Definition vertices_first (items : list bulk_item) : Prop :=
  forall a v b, items = a ++ BVertex v :: b -> forall e, ~ In (BEdge e) a.

(** A call whose repetition is harmless, [bulk] saying so for bulk inserts:
    - [set_properties] on what a query selects, if the query does not itself
      look at the property being set, and does not start from an index (whose
      order is not fixed, so that a limit could cut differently);
    - [delete] of properties likewise;
    - [delete] of vertices and edges, if no limit of the query cuts;
    - every other call. *)
Definition repeatable (bulk : list bulk_item -> Prop) (g : graph) (o : op) : Prop :=
  match o with
  | OSetProperties q n _ => ordered q /\ ~ In n (index_names q)
  | ODelete q =>
    match selects q with
    | Some (Some n) => ordered q /\ ~ In n (index_names q)
    | Some None => ordered q /\ index_names q = []
    | None => roomy g q
    end
  | OBulkInsert items => bulk items
  | _ => True
  end.

(** What the second call returns when the first returned [r]. *)
Definition again (o : op) (r : outcome res) : outcome res :=
  match o, r with
  | OCreateVertex _, _ => Ok (RBoolean false)
  | OCreateVertexFromType _ _, _ => Err UuidTaken
  | _, _ => r
  end.

(** ** Kinds of results do not depend on the graph *)

Definition same_kind (v w : outv) : Prop :=
  match v, w with
  | Vertices _, Vertices _ | Edges _, Edges _ | Count _, Count _
  | VertexProperties _, VertexProperties _ | EdgeProperties _, EdgeProperties _ => True
  | _, _ => False
  end.

Lemma same_kind_accepts q v v1 : same_kind v v1 -> accepts q v = accepts q v1.
Proof. destruct q, v, v1; cbn; tauto. Qed.

Section Kinds.
  Variable tlt : ident -> ident -> Prop.
  Variable vmatch : json -> json -> Prop.
  Variable g g1 : graph.

  Lemma evals_same_kind q : forall ex v ex1 v1, evals tlt vmatch g q ex v -> evals tlt vmatch g1 q ex1 v1 -> same_kind v v1.
  Proof.
    induction q; intros ex v0 ex1 v1 E E1; inversion E; subst; inversion E1; subst; cbn; auto;
      repeat match goal with
      | A : evals _ _ g ?i _ _, B : evals _ _ g1 ?i _ _ |- _ => pose proof (IHq _ _ _ _ A B) as K; clear A
      end; cbn in *; auto; tauto.
  Qed.

  Hypothesis Ix : gix g = gix g1.

  Lemma indexed_ix n : indexed g n <-> indexed g1 n.
  Proof. unfold indexed. now rewrite Ix. Qed.

  Lemma fails_not_evals q e ex v : fails tlt vmatch g q e -> evals tlt vmatch g1 q ex v -> False.
  Proof.
    intros F. revert ex v. induction F as [q i e Hi F IH|q i exi vi Hi EI Ac|q n Hi Hx N|q i n exi vi Hi EI Ac Hx N]; intros ex v E.
    - destruct (evals_inner Hi E) as (ex' & v' & E' & _). exact (IH _ _ E').
    - destruct (evals_inner Hi E) as (ex' & v' & E' & A & _).
      rewrite <- (@same_kind_accepts q _ _ (evals_same_kind EI E')) in A. congruence.
    - apply N, indexed_ix. destruct q; cbn in *; try discriminate; inversion E; subst; congruence.
    - destruct (evals_inner Hi E) as (ex' & v' & E' & A & I). apply N, indexed_ix, (I n Hx).
  Qed.
End Kinds.

Section Fails.
  Variable tlt : ident -> ident -> Prop.
  Variable vmatch : json -> json -> Prop.
  Variable g g1 : graph.
  Hypothesis Ix : gix g = gix g1.

  Lemma fails_same q e e' : fails tlt vmatch g q e -> fails tlt vmatch g1 q e' -> e = e'.
  Proof.
    intros F. revert e'. induction F as [q i e Hi F IH|q i exi vi Hi EI Ac|q n Hi Hx N|q i n exi vi Hi EI Ac Hx N]; intros e' F';
      (inversion F' as [q' i' e1 Hi' F1|q' i' ex' v' Hi' E' Ac'|q' n' Hi' Hx' N'|q' i' n' ex' v' Hi' E' Ac' Hx' N']; subst);
      try congruence; try (rewrite Hi in Hi'; inversion Hi'; subst); auto.
    - exfalso. exact (fails_not_evals Ix F E').
    - exfalso. exact (fails_not_evals Ix F E').
    - exfalso. exact (fails_not_evals (eq_sym Ix) F1 EI).
    - rewrite (@same_kind_accepts q _ _ (evals_same_kind EI E')) in Ac. congruence.
    - exfalso. exact (fails_not_evals (eq_sym Ix) F1 EI).
    - rewrite (@same_kind_accepts q _ _ (evals_same_kind EI E')) in Ac. congruence.
  Qed.
End Fails.

(** ** Sizes *)

Definition elem_count (v : outv) : N :=
  match v with Vertices l => lenN l | Edges l => lenN l | _ => 0 end.

Lemma sorted_nodup {A} (R : A -> A -> Prop) l : (forall x, ~ R x x) -> StronglySorted R l -> NoDup l.
Proof.
  intros I. induction 1 as [|a l H IH F]; constructor; auto. intros Ha. rewrite Forall_forall in F. exact (I _ (F _ Ha)).
Qed.

Lemma lenN_le {A B} (l : list A) (l' : list B) : length l <= length l' -> (lenN l <= lenN l')%N.
Proof. unfold lenN. lia. Qed.

Lemma vertices_count g l : NoDup l -> (forall v, In v l -> is_vertex g v) -> (lenN l <= size (gv g))%N.
Proof.
  intros N I. unfold size. apply lenN_le. rewrite <- (map_length (fun kv => Vertex (fst kv) (snd kv)) (elems (gv g))).
  apply NoDup_incl_length; [assumption|]. intros v Hv. apply in_map_iff. exists (vid v, vt v). split; [now destruct v|].
  apply get_In. now apply I.
Qed.
Lemma edges_count g l : NoDup l -> (forall e, In e l -> is_edge g e) -> (lenN l <= size (ge g))%N.
Proof.
  intros N I. unfold size. apply lenN_le. rewrite <- (map_length fst (elems (ge g))).
  apply NoDup_incl_length; [assumption|]. intros e He. apply keys_In. now apply I.
Qed.

Lemma limited_all {A} limit (l : list A) : (lenN l <= limit)%N -> limited limit l = l.
Proof. unfold limited, lenN. intros L. apply firstn_all2. lia. Qed.
Lemma limited_le {A} limit (l : list A) : (lenN (limited limit l) <= lenN l)%N.
Proof. unfold limited, lenN. rewrite firstn_length. lia. Qed.
Lemma keeps_le {A} (P : A -> Prop) l l' : keeps P l l' -> (lenN l' <= lenN l)%N.
Proof. unfold lenN. induction 1; cbn [length]; lia. Qed.
Lemma found_le g ids : (lenN (flat_map (found g) ids) <= lenN ids)%N.
Proof.
  unfold lenN. induction ids as [|id ids IH]; cbn; [lia|]. rewrite app_length. unfold found at 1.
  destruct (get id (gv g)); cbn; lia.
Qed.

Section Sizes.
  Variable tlt : ident -> ident -> Prop.
  Variable vmatch : json -> json -> Prop.
  Hypothesis T : type_order tlt.
  Variable g : graph.

  Lemma edges_at_le d t v l : edges_at tlt g d t v l -> (lenN l <= size (ge g))%N.
  Proof.
    intros [Hs I]. apply edges_count.
    - apply (sorted_nodup (R := dir_lt tlt d)); [|assumption]. intros x. destruct d; apply (elt_irrefl T).
    - intros e He. now apply I in He.
  Qed.

  Lemma concat_le d t vs ls : Forall2 (edges_at tlt g d t) vs ls -> (lenN (concat ls) <= lenN vs * size (ge g))%N.
  Proof.
    induction 1 as [|v l vs ls Hl F IH]; [cbn; lia|]. apply edges_at_le in Hl. unfold lenN in *. cbn [concat length].
    rewrite app_length. lia.
  Qed.

  Lemma evals_most q : forall ex v, evals tlt vmatch g q ex v -> (elem_count v <= most g q)%N.
  Proof.
    induction q; intros ex v0 E; inversion E; subst; cbn [elem_count most]; try lia;
      try (match goal with A : evals _ _ _ q _ _ |- _ => apply IHq in A as B; cbn [elem_count] in B end);
      try (match goal with K : keeps _ _ _ |- _ => apply keeps_le in K as L end);
      try (match goal with L : listing _ _ _ |- _ => destruct L as [Hs I] end).
    - apply vertices_count; [|intros w Hw; now apply I].
      apply (sorted_nodup (R := vlt)); [|assumption]. intros x. apply lt_irrefl.
    - etransitivity; [apply limited_le|]. apply vertices_count; [|intros w Hw; now apply I in Hw].
      apply (sorted_nodup (R := vlt)); [|assumption]. intros x. apply lt_irrefl.
    - apply found_le.
    - apply vertices_count; [assumption|]. intros w Hw. match goal with A : forall v, In v l <-> _ |- _ => now apply A in Hw end.
    - apply vertices_count; [assumption|]. intros w Hw. match goal with A : forall v, In v l <-> _ |- _ => now apply A in Hw end.
    - apply edges_count; [|intros w Hw; now apply I in Hw].
      apply (sorted_nodup (R := elt tlt)); [|assumption]. intros x. apply (elt_irrefl T).
    - exact L.
    - apply edges_count; [assumption|]. intros w Hw. match goal with A : forall v, In v l <-> _ |- _ => now apply A in Hw end.
    - apply edges_count; [assumption|]. intros w Hw. match goal with A : forall v, In v l <-> _ |- _ => now apply A in Hw end.
    - etransitivity; [apply limited_le|]. etransitivity; [exact L|].
      etransitivity; [apply found_le|]. unfold lenN in *. rewrite map_length. lia.
    - etransitivity; [apply limited_le|]. etransitivity; [eapply concat_le; eassumption|].
      transitivity (most g q * size (ge g))%N; [now apply N.mul_le_mono_r|]. apply N.mul_le_mono_l. lia.
    - etransitivity; [exact L|exact B].
    - etransitivity; [exact L|exact B].
    - etransitivity; [exact L|exact B].
    - etransitivity; [exact L|exact B].
    - exact B.
  Qed.
End Sizes.

(** ** Fewer elements, same properties *)

Record restricts (g g1 : graph) : Prop := {
  rs_v : forall v, is_vertex g1 v -> is_vertex g v;
  rs_e : forall e, is_edge g1 e -> is_edge g e;
  rs_vp : forall v n, is_vertex g1 v -> vprop_fn g1 v n = vprop_fn g v n;
  rs_ep : forall e n, is_edge g1 e -> eprop_fn g1 e n = eprop_fn g e n;
  rs_ix : gix g = gix g1 }.

Definition within (v1 v : outv) : Prop :=
  match v1, v with
  | Vertices l1, Vertices l => incl l1 l
  | Edges l1, Edges l => incl l1 l
  | _, _ => same_kind v1 v
  end.

Lemma keeps_sub {A} (P P1 : A -> Prop) l l1 k k1 : keeps P l k -> keeps P1 l1 k1 -> incl l1 l ->
  (forall x, In x l1 -> P1 x -> P x) -> incl k1 k.
Proof.
  intros K K1 I HP x Hx. destruct (keeps_incl K1 x Hx) as [H1 H2]. pose proof (I _ H1) as Hl. pose proof (HP _ H1 H2) as Px.
  clear -K Hl Px. induction K; cbn in *; try tauto; intuition (subst; tauto).
Qed.

Lemma keeps_eqv {A} (P Q : A -> Prop) l l' : (forall x, P x <-> Q x) -> keeps P l l' -> keeps Q l l'.
Proof. intros E. induction 1; constructor; auto; now rewrite <- E. Qed.

Section Restrict.
  Variable tlt : ident -> ident -> Prop.
  Variable vmatch : json -> json -> Prop.
  Hypothesis T : type_order tlt.
  Variable g g1 : graph.
  Hypothesis R : restricts g g1.

  Lemma found_sub a a1 : incl a1 a -> incl (flat_map (found g1) a1) (flat_map (found g) a).
  Proof.
    intros I v Hv. apply in_flat_map in Hv as (id & Hid & Hv). apply in_flat_map. exists id. split; [auto|].
    unfold found in *. destruct (get id (gv g1)) as [t|] eqn:G; [|now elim Hv]. destruct Hv as [<-|[]].
    assert (is_vertex g (Vertex id t)) as H by now apply (rs_v R). unfold is_vertex in H. cbn in H. rewrite H. now left.
  Qed.

  Lemma edges_at_sub d t vs vs1 ls ls1 : Forall2 (edges_at tlt g d t) vs ls -> Forall2 (edges_at tlt g1 d t) vs1 ls1 ->
    incl vs1 vs -> incl (concat ls1) (concat ls).
  Proof.
    intros F F1 I e He. apply in_concat in He as (l1 & Hl1 & He). destruct (Forall2_In_r _ F1 Hl1) as (v & Hv & [_ E1]).
    destruct (proj1 (E1 e) He) as (Hg & Hd & Ht). specialize (I _ Hv). clear Hv. rename I into Hv. clear -F Hv Hg Hd Ht R.
    induction F as [|w l vs ls Hl F IH]; [now elim Hv|]. cbn [concat]. apply in_or_app. destruct Hv as [->|Hv]; [|right; auto].
    left. apply (proj2 Hl). conj; auto. now apply (rs_e R).
  Qed.

  Lemma evals_sub q : roomy g q -> forall ex v ex1 v1, evals tlt vmatch g q ex v -> evals tlt vmatch g1 q ex1 v1 -> within v1 v.
  Proof.
    induction q; cbn [roomy]; intros Hr ex v0 ex1 v1 E E1.
    all: pose proof (evals_exists E1) as Ex1; inversion E; subst; inversion E1; subst; cbn [within value_exists same_kind] in *; auto;
      rewrite ?Forall_forall in Ex1;
      try (match goal with
      | IH : roomy g ?i -> _, A : evals _ _ g ?i _ _, B : evals _ _ g1 ?i _ _ |- _ =>
          assert (roomy g i) as Hr' by tauto; pose proof (IH Hr' _ _ _ _ A B) as W; pose proof (evals_exists B) as Ex2;
          pose proof (evals_most T A) as Mo
      end); cbn [within same_kind value_exists elem_count] in *; try tauto; rewrite ?Forall_forall in *.
    - intros w Hw. match goal with L : listing _ _ l |- _ => apply (proj2 L) end. now apply (rs_v R), Ex1.
    - intros w Hw. pose proof (Ex1 _ Hw) as Hv. apply limited_In in Hw.
      match goal with L : listing _ _ l0 |- _ => apply (proj2 L) in Hw as (_ & H1 & H2) end.
      match goal with L : listing _ _ l |- _ => rename L into L0 end.
      rewrite limited_all.
      + apply (proj2 L0). conj; auto. now apply (rs_v R).
      + etransitivity; [|exact Hr]. destruct L0 as [Hs I]. apply vertices_count; [|intros x Hx; now apply I in Hx].
        apply (sorted_nodup (R := vlt)); [|assumption]. intros x. apply lt_irrefl.
    - apply found_sub. apply incl_refl.
    - intros w Hw. match goal with A : forall v, In v l0 <-> _ |- _ => apply A in Hw as (Hv & H7) end.
      match goal with A : forall v, In v l <-> _ |- _ => apply A end. split; [now apply (rs_v R)|].
      unfold has in *. now rewrite <- (rs_vp R) by assumption.
    - intros w Hw. match goal with A : forall v, In v l0 <-> _ |- _ => apply A in Hw as (Hv & H7) end.
      match goal with A : forall v, In v l <-> _ |- _ => apply A end. split; [now apply (rs_v R)|].
      unfold has_value in *. now rewrite <- (rs_vp R) by assumption.
    - intros w Hw. match goal with L : listing _ _ l |- _ => apply (proj2 L) end. now apply (rs_e R), Ex1.
    - eapply keeps_sub; [eassumption|eassumption|apply incl_refl|]. intros x _. apply (rs_e R).
    - intros w Hw. match goal with A : forall v, In v l0 <-> _ |- _ => apply A in Hw as (Hv & H7) end.
      match goal with A : forall v, In v l <-> _ |- _ => apply A end. split; [now apply (rs_e R)|].
      unfold has in *. now rewrite <- (rs_ep R) by assumption.
    - intros w Hw. match goal with A : forall v, In v l0 <-> _ |- _ => apply A in Hw as (Hv & H7) end.
      match goal with A : forall v, In v l <-> _ |- _ => apply A end. split; [now apply (rs_e R)|].
      unfold has_value in *. now rewrite <- (rs_ep R) by assumption.
    - match goal with K : keeps _ (flat_map (found g) _) l, K1 : keeps _ (flat_map (found g1) _) l0 |- _ =>
        pose proof (keeps_sub K K1 (found_sub (incl_map _ W)) (fun x _ Hx => Hx)) as I; apply keeps_le in K as L end.
      intros w Hw. apply limited_In in Hw. rewrite limited_all; [now apply I|].
      etransitivity; [exact L|]. etransitivity; [apply found_le|]. etransitivity; [|exact (proj1 Hr)].
      unfold lenN in *. rewrite map_length. lia.
    - match goal with K : Forall2 _ vs ls, K1 : Forall2 _ vs0 ls0 |- _ =>
        pose proof (edges_at_sub K K1 W) as I; pose proof (concat_le T K) as L end.
      intros w Hw. apply limited_In in Hw. rewrite limited_all; [now apply I|].
      etransitivity; [exact L|]. etransitivity; [|exact (proj1 Hr)].
      transitivity (most g q * size (ge g))%N; [now apply N.mul_le_mono_r|]. apply N.mul_le_mono_l. lia.
    - eapply keeps_sub; [eassumption|eassumption|exact W|]. intros x Hx. unfold has. now rewrite (rs_vp R) by auto.
    - eapply keeps_sub; [eassumption|eassumption|exact W|]. intros x Hx. unfold has. now rewrite (rs_ep R) by auto.
    - eapply keeps_sub; [eassumption|eassumption|exact W|]. intros y Hx. unfold has_value. now rewrite (rs_vp R) by auto.
    - eapply keeps_sub; [eassumption|eassumption|exact W|]. intros y Hx. unfold has_value. now rewrite (rs_ep R) by auto.
  Qed.
End Restrict.

(** ** Same elements, same properties as far as the query looks *)

Record alike (names : ident -> Prop) (g g1 : graph) : Prop := {
  al_v : gv g = gv g1;
  al_e : ge g = ge g1;
  al_ix : gix g = gix g1;
  al_vp : forall v n, names n -> vprop_fn g v n = vprop_fn g1 v n;
  al_ep : forall e n, names n -> eprop_fn g e n = eprop_fn g1 e n }.

Section Alike.
  Variable tlt : ident -> ident -> Prop.
  Variable vmatch : json -> json -> Prop.
  Variable g g1 : graph.

  Lemma evals_alike q ex v : evals tlt vmatch g q ex v -> is_elems v = true -> alike (fun n => In n (index_names q)) g g1 ->
    evals tlt vmatch g1 q ex v.
  Proof.
    induction 1; cbn [is_elems index_names]; intros El [Hv He Hx Hvp Hep]; try discriminate.
    - constructor. unfold is_vertex in *. now rewrite <- Hv.
    - constructor. unfold is_vertex in *. now rewrite <- Hv.
    - assert (flat_map (found g) ids = flat_map (found g1) ids) as -> by (unfold found; now rewrite Hv). constructor.
    - constructor; [unfold indexed in *; now rewrite <- Hx|assumption|]. intros w. rewrite H1. unfold is_vertex, has.
      rewrite Hv, Hvp by (cbn; auto). tauto.
    - constructor; [unfold indexed in *; now rewrite <- Hx|assumption|]. intros w. rewrite H1. unfold is_vertex, has_value.
      rewrite Hv, Hvp by (cbn; auto). tauto.
    - constructor. unfold is_edge in *. now rewrite <- He.
    - constructor. unfold is_edge in *. now rewrite <- He.
    - constructor; [unfold indexed in *; now rewrite <- Hx|assumption|]. intros w. rewrite H1. unfold is_edge, has.
      rewrite He, Hep by (cbn; auto). tauto.
    - constructor; [unfold indexed in *; now rewrite <- Hx|assumption|]. intros w. rewrite H1. unfold is_edge, has_value.
      rewrite He, Hep by (cbn; auto). tauto.
    - econstructor; [apply IHevals; [reflexivity|split; auto]|].
      assert (flat_map (found g1) (map (endpoint d) es) = flat_map (found g) (map (endpoint d) es)) as -> by (unfold found; now rewrite Hv).
      assumption.
    - econstructor; [apply IHevals; [reflexivity|split; auto]|]. eapply JsonFacts.Forall2_impl_In; [|eassumption]. intros a b _ _. unfold edges_at, is_edge.
      rewrite He. auto.
    - econstructor; [apply IHevals; [reflexivity|split; auto; intros; (apply Hvp || apply Hep); now right]|unfold indexed in *; now rewrite <- Hx|].
      eapply keeps_eqv; [|eassumption]. intros w. unfold has. rewrite Hvp by (cbn; auto). tauto.
    - econstructor; [apply IHevals; [reflexivity|split; auto; intros; (apply Hvp || apply Hep); now right]|unfold indexed in *; now rewrite <- Hx|].
      eapply keeps_eqv; [|eassumption]. intros w. unfold has. rewrite Hep by (cbn; auto). tauto.
    - econstructor; [apply IHevals; [reflexivity|split; auto; intros; (apply Hvp || apply Hep); now right]|unfold indexed in *; now rewrite <- Hx|].
      eapply keeps_eqv; [|eassumption]. intros w. unfold has_value. rewrite Hvp by (cbn; auto). tauto.
    - econstructor; [apply IHevals; [reflexivity|split; auto; intros; (apply Hvp || apply Hep); now right]|unfold indexed in *; now rewrite <- Hx|].
      eapply keeps_eqv; [|eassumption]. intros w. unfold has_value. rewrite Hep by (cbn; auto). tauto.
    - constructor. apply IHevals; [assumption|split; auto].
  Qed.
End Alike.

(** ** Updates that are made twice *)

Lemma graph_ext g g' : (forall id, get id (gv g) = get id (gv g')) -> (forall e, is_edge g e <-> is_edge g' e) ->
  (forall k, get k (gvp g) = get k (gvp g')) -> (forall k, get k (gep g) = get k (gep g')) ->
  (forall n, indexed g n <-> indexed g' n) -> g = g'.
Proof.
  destruct g as [v e vp ep ix], g' as [v' e' vp' ep' ix']. unfold is_edge, indexed. cbn. intros Hv He Hvp Hep Hix. f_equal.
  - now apply omap_ext.
  - apply oset_ext. intros k. apply eq_true_iff_eq, He.
  - now apply omap_ext.
  - now apply omap_ext.
  - apply oset_ext. intros k. apply eq_true_iff_eq, Hix.
Qed.

(** Deleting what is not there. *)
Lemma delete_vertices_absent g ids : (forall id, In id ids -> get id (gv g) = None) ->
  (forall e, is_edge g e -> ~ In (eout e) ids /\ ~ In (ein e) ids) ->
  (forall id n, In id ids -> get (id, n) (gvp g) = None) -> g_delete_vertices g ids = g.
Proof.
  intros Hv He Hp. unfold g_delete_vertices. rewrite !filt_true; [now destruct g|..].
  - intros [e n] x G. cbn [fst]. rewrite negb_true_iff, andb_false_iff. destruct (mem e (ge g)) eqn:M; [left|now right].
    apply He in M as [H1 H2]. unfold incident. rewrite orb_false_iff, !inb_not_In. auto.
  - intros [id n] x G. cbn [fst]. apply not_inb. intros Hin. rewrite (Hp _ n Hin) in G. discriminate.
  - intros e [] G. cbn [fst]. apply get_oset in G. apply He in G as [H1 H2]. unfold incident.
    rewrite negb_true_iff, orb_false_iff, !inb_not_In. auto.
  - intros id t G. cbn [fst]. apply not_inb. intros Hin. rewrite (Hv _ Hin) in G. discriminate.
Qed.
Lemma rdelete_vertices_absent g ids : (forall id, In id ids -> get id (gv g) = None) ->
  (forall e, is_edge g e -> ~ In (eout e) ids) ->
  (forall id n, In id ids -> get (id, n) (gvp g) = None) ->
  (forall e n x, get (e, n) (gep g) = Some x -> ~ (In (eout e) ids /\ (is_edge g e \/ is_edge g (reversed e)))) ->
  r_delete_vertices g ids = g.
Proof.
  intros Hv He Hp Hep. unfold r_delete_vertices. rewrite !filt_true; [now destruct g|..].
  - intros [e n] x G. cbn [fst]. apply Hep in G. rewrite negb_true_iff, <- not_true_iff_false, andb_true_iff, orb_true_iff, inb_In. exact G.
  - intros [id n] x G. cbn [fst]. apply not_inb. intros Hin. rewrite (Hp _ n Hin) in G. discriminate.
  - intros e [] G. cbn [fst]. apply get_oset in G. apply He in G. now apply not_inb.
  - intros id t G. cbn [fst]. apply not_inb. intros Hin. rewrite (Hv _ Hin) in G. discriminate.
Qed.
Lemma delete_edges_absent g es : (forall e, In e es -> ~ is_edge g e) -> (forall e n, In e es -> get (e, n) (gep g) = None) ->
  g_delete_edges g es = g.
Proof.
  intros He Hp. unfold g_delete_edges. rewrite !filt_true; [now destruct g|..].
  - intros [e n] x G. cbn [fst]. apply not_inb. intros Hin. rewrite (Hp _ n Hin) in G. discriminate.
  - intros e [] G. cbn [fst]. apply get_oset in G. apply not_inb. intros Hin. exact (He _ Hin G).
Qed.
Lemma delete_vprops_absent g ps : (forall k, In k ps -> get k (gvp g) = None) -> g_delete_vertex_properties g ps = g.
Proof.
  intros Hp. unfold g_delete_vertex_properties. rewrite filt_true; [now destruct g|].
  intros k x G. cbn [fst]. apply not_inb. intros Hin. rewrite (Hp _ Hin) in G. discriminate.
Qed.
Lemma delete_eprops_absent g ps : (forall k, In k ps -> get k (gep g) = None) -> g_delete_edge_properties g ps = g.
Proof.
  intros Hp. unfold g_delete_edge_properties. rewrite filt_true; [now destruct g|].
  intros k x G. cbn [fst]. apply not_inb. intros Hin. rewrite (Hp _ Hin) in G. discriminate.
Qed.

Lemma none_of {A} (o : option A) : (forall x, o = Some x -> False) -> o = None.
Proof. destruct o; intros H; [elim (H a eq_refl)|reflexivity]. Qed.

Lemma delete_vertices_twice g ids : g_delete_vertices (g_delete_vertices g ids) ids = g_delete_vertices g ids.
Proof.
  pose proof (delete_vertices_claim g ids) as C. apply delete_vertices_absent.
  - intros id Hin. apply none_of. intros t G. apply (vd_vertices C) in G. tauto.
  - intros e He. apply (vd_edges C) in He. tauto.
  - intros id n Hin. apply none_of. intros x G. apply (vd_vprops C) in G. tauto.
Qed.
Lemma rdelete_vertices_twice g ids : r_delete_vertices (r_delete_vertices g ids) ids = r_delete_vertices g ids.
Proof.
  pose proof (r_delete_vertices_claim g ids) as C. apply rdelete_vertices_absent.
  - intros id Hin. apply none_of. intros t G. apply (vo_vertices C) in G. tauto.
  - intros e He. apply (vo_edges C) in He. tauto.
  - intros id n Hin. apply none_of. intros x G. apply (vo_vprops C) in G. tauto.
  - intros e n x G [Hin [He|He]]; apply (vo_eprops C) in G as [_ G]; apply (vo_edges C) in He; tauto.
Qed.
Lemma delete_edges_twice g es : g_delete_edges (g_delete_edges g es) es = g_delete_edges g es.
Proof.
  pose proof (delete_edges_claim g es) as C. apply delete_edges_absent.
  - intros e Hin He. apply (ed_edges C) in He. tauto.
  - intros e n Hin. apply none_of. intros x G. apply (ed_eprops C) in G. tauto.
Qed.
Lemma rdelete_edges_twice g es : r_delete_edges (r_delete_edges g es) es = r_delete_edges g es.
Proof. unfold r_delete_edges. cbn [gv g_delete_edges]. apply delete_edges_twice. Qed.

(** A list of writes made twice. *)
Definition puts {K V} {O : Ord K} (kvs : list (K * V)) (m : omap K V) : omap K V :=
  fold_left (fun m kv => set (fst kv) (snd kv) m) kvs m.

Lemma puts_get {K V} {O : Ord K} (kvs : list (K * V)) k : 
  (forall m, get k (puts kvs m) = get k m) \/ exists v, forall m, get k (puts kvs m) = Some v.
Proof.
  induction kvs as [|[k1 v1] kvs [IH|(v & IH)]] using rev_ind; [left; reflexivity| |].
  - destruct (eqb k k1) eqn:E; [right; exists v1|left]; intros m; unfold puts; rewrite fold_left_app; cbn [fold_left fst snd];
      rewrite get_set, E; [reflexivity|apply IH].
  - right. destruct (eqb k k1) eqn:E; [exists v1|exists v]; intros m; unfold puts; rewrite fold_left_app; cbn [fold_left fst snd];
      rewrite get_set, E; [reflexivity|apply IH].
Qed.
Lemma puts_twice {K V} {O : Ord K} (kvs : list (K * V)) m : puts kvs (puts kvs m) = puts kvs m.
Proof. apply omap_ext. intros k. destruct (puts_get kvs k) as [H|(v & H)]; now rewrite !H. Qed.

Lemma set_vprops_puts g ids n x : gvp (g_set_vertex_properties g ids n x) = puts (map (fun id => ((id, n), x)) ids) (gvp g).
Proof.
  cbn. generalize (gvp g). unfold puts. induction ids as [|id ids IH]; intros m; cbn; [reflexivity|apply IH].
Qed.
Lemma set_eprops_puts g es n x : gep (g_set_edge_properties g es n x) = puts (map (fun id => ((id, n), x)) es) (gep g).
Proof.
  cbn. generalize (gep g). unfold puts. induction es as [|id ids IH]; intros m; cbn; [reflexivity|apply IH].
Qed.
Lemma set_vprops_twice g ids n x :
  g_set_vertex_properties (g_set_vertex_properties g ids n x) ids n x = g_set_vertex_properties g ids n x.
Proof.
  change (Graph (gv g) (ge g) (gvp (g_set_vertex_properties (g_set_vertex_properties g ids n x) ids n x)) (gep g) (gix g) =
          Graph (gv g) (ge g) (gvp (g_set_vertex_properties g ids n x)) (gep g) (gix g)).
  now rewrite !set_vprops_puts, puts_twice.
Qed.
Lemma set_eprops_twice g es n x :
  g_set_edge_properties (g_set_edge_properties g es n x) es n x = g_set_edge_properties g es n x.
Proof.
  change (Graph (gv g) (ge g) (gvp g) (gep (g_set_edge_properties (g_set_edge_properties g es n x) es n x)) (gix g) =
          Graph (gv g) (ge g) (gvp g) (gep (g_set_edge_properties g es n x)) (gix g)).
  now rewrite !set_eprops_puts, puts_twice.
Qed.

Lemma create_vertex_twice g v : g_create_vertex (g_create_vertex g v) v = g_create_vertex g v.
Proof.
  unfold g_create_vertex at 2 3. destruct (mem (vid v) (gv g)) eqn:M; unfold g_create_vertex; cbn [gv]; [now rewrite M|].
  now rewrite mem_set, eqb_refl.
Qed.
Lemma add_twice {K} {O : Ord K} (k : K) (m : oset K) : add k (add k m) = add k m.
Proof. apply oset_ext. intros k'. rewrite !mem_add. now destruct (eqb k' k). Qed.
Lemma create_edge_twice g e : g_create_edge (g_create_edge g e) e = g_create_edge g e.
Proof.
  unfold g_create_edge at 2 3. destruct (mem (eout e) (gv g) && mem (ein e) (gv g)) eqn:M; unfold g_create_edge; cbn [gv]; rewrite M; [|reflexivity].
  cbn [gv ge gvp gep gix]. now rewrite add_twice.
Qed.
Lemma index_twice g n : g_index_property (g_index_property g n) n = g_index_property g n.
Proof. unfold g_index_property. cbn [gix gv ge gvp gep]. now rewrite add_twice. Qed.

(** ** Bulk inserts *)

Definition vwrites (items : list bulk_item) : list (uuid * ident) :=
  flat_map (fun it => match it with BVertex v => [(vid v, vt v)] | _ => [] end) items.
Definition ewrites (items : list bulk_item) : list (edge * unit) :=
  flat_map (fun it => match it with BEdge e => [(e, tt)] | _ => [] end) items.
Definition vpwrites (items : list bulk_item) : list (uuid * ident * json) :=
  flat_map (fun it => match it with BVProp id n x => [((id, n), x)] | _ => [] end) items.
Definition epwrites (items : list bulk_item) : list (edge * ident * json) :=
  flat_map (fun it => match it with BEProp e n x => [((e, n), x)] | _ => [] end) items.

Lemma r_bulk_puts items : forall g, r_bulk_insert g items =
  Graph (puts (vwrites items) (gv g)) (puts (ewrites items) (ge g)) (puts (vpwrites items) (gvp g))
        (puts (epwrites items) (gep g)) (gix g).
Proof.
  unfold r_bulk_insert. induction items as [|[v|e|id n x|e n x] items IH]; intros g; [now destruct g|..];
    cbn [fold_left r_bulk_item]; rewrite IH; reflexivity.
Qed.
Lemma r_bulk_twice g items : r_bulk_insert (r_bulk_insert g items) items = r_bulk_insert g items.
Proof. rewrite !r_bulk_puts. cbn [gv ge gvp gep gix]. now rewrite !puts_twice. Qed.

Lemma g_bulk_props items : forall g, gvp (g_bulk_insert g items) = puts (vpwrites items) (gvp g) /\
  gep (g_bulk_insert g items) = puts (epwrites items) (gep g) /\ gix (g_bulk_insert g items) = gix g.
Proof.
  unfold g_bulk_insert. induction items as [|it items IH]; intros g; [auto|]. cbn [fold_left].
  destruct (IH (g_bulk_item g it)) as (H1 & H2 & H3). rewrite H1, H2, H3. destruct it; cbn [g_bulk_item]; try (conj; reflexivity).
  - unfold g_create_vertex. destruct (mem (vid v) (gv g)); auto.
  - unfold g_create_edge. destruct (_ && _); auto.
Qed.

Lemma bulk_item_grows g it : (forall id, mem id (gv g) = true -> mem id (gv (g_bulk_item g it)) = true) /\
  (forall e, is_edge g e -> is_edge (g_bulk_item g it) e).
Proof.
  unfold is_edge. destruct it; cbn [g_bulk_item]; split; cbn; auto.
  - intros id M. unfold g_create_vertex. destruct (mem (vid v) (gv g)); [assumption|]. cbn. now rewrite mem_set, M, orb_true_r.
  - unfold g_create_vertex. now destruct (mem (vid v) (gv g)).
  - unfold g_create_edge. now destruct (_ && _).
  - intros f M. unfold g_create_edge. destruct (_ && _); [|assumption]. cbn. now rewrite mem_add, M, orb_true_r.
Qed.
Lemma bulk_grows items : forall g, (forall id, mem id (gv g) = true -> mem id (gv (g_bulk_insert g items)) = true) /\
  (forall e, is_edge g e -> is_edge (g_bulk_insert g items) e).
Proof.
  unfold g_bulk_insert. induction items as [|it items IH]; intros g; [cbn; auto|]. cbn [fold_left].
  destruct (bulk_item_grows g it) as [A B], (IH (g_bulk_item g it)) as [C D]. split; auto.
Qed.
Lemma bulk_no_vertices items : (forall v, ~ In (BVertex v) items) -> forall g, gv (g_bulk_insert g items) = gv g.
Proof.
  unfold g_bulk_insert. induction items as [|it items IH]; intros N g; [reflexivity|]. cbn [fold_left].
  rewrite IH by (intros v H; apply (N v); now right). destruct it; cbn; auto; [elim (N v); now left|].
  unfold g_create_edge. now destruct (_ && _).
Qed.

(** Everything the items ask for is there, so nothing changes. *)
Lemma bulk_settled items g : (forall v, In (BVertex v) items -> mem (vid v) (gv g) = true) ->
  (forall e, In (BEdge e) items -> mem (eout e) (gv g) = true -> mem (ein e) (gv g) = true -> is_edge g e) ->
  gv (g_bulk_insert g items) = gv g /\ ge (g_bulk_insert g items) = ge g.
Proof.
  assert (forall items g1, gv g1 = gv g -> ge g1 = ge g ->
    (forall v, In (BVertex v) items -> mem (vid v) (gv g) = true) ->
    (forall e, In (BEdge e) items -> mem (eout e) (gv g) = true -> mem (ein e) (gv g) = true -> is_edge g e) ->
    gv (g_bulk_insert g1 items) = gv g /\ ge (g_bulk_insert g1 items) = ge g) as H; [|intros; now apply H].
  clear items. unfold g_bulk_insert. induction items as [|it items IH]; intros g1 V1 E1 HV HE; [auto|]. cbn [fold_left]. apply IH.
  - destruct it; cbn; auto.
    + unfold g_create_vertex. now rewrite V1, (HV v (or_introl eq_refl)).
    + unfold g_create_edge. now destruct (_ && _).
  - destruct it; cbn; auto.
    + unfold g_create_vertex. now destruct (mem _ _).
    + unfold g_create_edge. rewrite V1. destruct (mem (eout e) (gv g)) eqn:M1, (mem (ein e) (gv g)) eqn:M2; cbn; auto.
      specialize (HE e (or_introl eq_refl) M1 M2). rewrite E1. unfold is_edge in HE. apply oset_ext. intros f. rewrite mem_add.
      destruct (eqb f e) eqn:Ef; [|reflexivity]. apply eqb_eq in Ef. subst. now rewrite HE.
  - intros v Hv. apply HV. now right.
  - intros f Hf. apply HE. now right.
Qed.

Lemma g_bulk_twice g items : vertices_first items -> g_bulk_insert (g_bulk_insert g items) items = g_bulk_insert g items.
Proof.
  intros VF. set (g1 := g_bulk_insert g items).
  destruct (@bulk_settled items g1) as [H1 H2].
  - intros v Hv. apply in_split in Hv as (a & b & Ei). unfold g1. rewrite Ei. unfold g_bulk_insert. rewrite fold_left_app. cbn [fold_left].
    apply (bulk_grows b). cbn [g_bulk_item]. unfold g_create_vertex. set (g2 := fold_left g_bulk_item a g).
    destruct (mem (vid v) (gv g2)) eqn:M; [assumption|]. cbn. now rewrite mem_set, eqb_refl.
  - intros e He M1 M2. apply in_split in He as (a & b & Ei).
    assert (forall v, ~ In (BVertex v) b) as NV.
    { intros v Hv. apply in_split in Hv as (b1 & b2 & ->). apply (VF (a ++ BEdge e :: b1) v b2) with (e := e).
      - rewrite Ei. now rewrite <- app_assoc.
      - apply in_or_app. right. now left. }
    unfold g1 in *. rewrite Ei in *. unfold g_bulk_insert in *. rewrite fold_left_app in *. cbn [fold_left] in *.
    fold (g_bulk_insert (g_bulk_item (fold_left g_bulk_item a g) (BEdge e)) b) in *. rewrite (bulk_no_vertices b NV) in M1, M2.
    apply (bulk_grows b). cbn [g_bulk_item] in *. set (g2 := fold_left g_bulk_item a g) in *. unfold g_create_edge in *.
    destruct (mem (eout e) (gv g2)) eqn:N1, (mem (ein e) (gv g2)) eqn:N2; cbn in *; try congruence.
    unfold is_edge. cbn. now rewrite mem_add, eqb_refl.
  - destruct (g_bulk_props items g1) as (H3 & H4 & H5), (g_bulk_props items g) as (H6 & H7 & H8). fold g1 in H6, H7, H8.
    assert (gvp (g_bulk_insert g1 items) = gvp g1) as E1 by (rewrite H3, H6; apply puts_twice).
    assert (gep (g_bulk_insert g1 items) = gep g1) as E2 by (rewrite H4, H7; apply puts_twice).
    destruct (g_bulk_insert g1 items), g1; cbn in *; congruence.
Qed.

(** ** Queries that select properties *)

Fixpoint props_of (q : query) : option (query * option ident) :=
  match q with
  | QPipeProperty i name => Some (i, name)
  | QInclude i => props_of i
  | _ => None
  end.
Lemma selects_props q : selects q = option_map snd (props_of q).
Proof. induction q; cbn; auto. Qed.
Lemma props_of_same q i name : props_of q = Some (i, name) -> index_names i = index_names q /\ (ordered q -> ordered i).
Proof. induction q; cbn; intros E; inversion E; subst; auto. Qed.

Section Props.
  Variable tlt : ident -> ident -> Prop.
  Variable vmatch : json -> json -> Prop.
  Variable g : graph.

  Definition name_ok (name : option ident) (n : ident) : Prop := match name with Some m => n = m | None => True end.

  Lemma vprop_keys_In name vs pss id n : Forall2 (fun v ps => props_at (vprop_fn g v) name ps) vs pss ->
    In (id, n) (vprop_keys (flat_map nonempty_v (combine vs pss))) <->
    exists v, In v vs /\ vid v = id /\ (exists x, get (id, n) (gvp g) = Some x) /\ name_ok name n.
  Proof.
    induction 1 as [|v ps vs pss Hp F IH]; [split; [intros []|intros (v & [] & _)]|]. cbn [combine flat_map]. unfold vprop_keys in *. rewrite flat_map_app, in_app_iff, IH.
    assert (In (id, n) (flat_map (fun x => map (fun p => (vid (vp_vertex x), np_name p)) (vp_props x)) (nonempty_v (v, ps))) <->
            exists p, In p ps /\ vid v = id /\ np_name p = n) as ->.
    { unfold nonempty_v. cbn [fst snd]. destruct ps as [|p ps]; cbn [flat_map].
      - split; [intros []|intros (p & [] & _)].
      - rewrite app_nil_r, in_map_iff. cbn [vp_vertex vp_props]. split; intros (p' & H1 & H2).
        + inversion H1; subst. eauto.
        + destruct H2 as [<- <-]. eauto. }
    split.
    - intros [(p & Hi & <- & <-)|(w & Hw & R)].
      + apply (proj2 Hp) in Hi as [Hx Hn]. exists v. conj; [now left|reflexivity|exists (np_value p); exact Hx|].
        destruct name; cbn; auto.
      + exists w. split; [now right|exact R].
    - intros (w & [<-|Hw] & <- & (x & Hx) & Hn).
      + left. exists (NProp n x). conj; auto. apply (proj2 Hp). split; [exact Hx|]. destruct name; cbn in *; auto.
      + right. exists w. conj; eauto.
  Qed.
  Lemma eprop_keys_In name es pss e n : Forall2 (fun v ps => props_at (eprop_fn g v) name ps) es pss ->
    In (e, n) (eprop_keys (flat_map nonempty_e (combine es pss))) <->
    In e es /\ (exists x, get (e, n) (gep g) = Some x) /\ name_ok name n.
  Proof.
    induction 1 as [|v ps vs pss Hp F IH]; [split; [intros []|intros ([] & _)]|]. cbn [combine flat_map]. unfold eprop_keys in *. rewrite flat_map_app, in_app_iff, IH.
    assert (In (e, n) (flat_map (fun x => map (fun p => (ep_edge x, np_name p)) (ep_props x)) (nonempty_e (v, ps))) <->
            exists p, In p ps /\ v = e /\ np_name p = n) as ->.
    { unfold nonempty_e. cbn [fst snd]. destruct ps as [|p ps]; cbn [flat_map].
      - split; [intros []|intros (p & [] & _)].
      - rewrite app_nil_r, in_map_iff. cbn [ep_edge ep_props]. split; intros (p' & H1 & H2).
        + inversion H1; subst. eauto.
        + destruct H2 as [<- <-]. eauto. }
    split.
    - intros [(p & Hi & <- & <-)|(Hw & R)].
      + apply (proj2 Hp) in Hi as [Hx Hn]. conj; [now left|exists (np_value p); exact Hx|]. destruct name; cbn; auto.
      + split; [now right|exact R].
    - intros ([<-|Hw] & (x & Hx) & Hn).
      + left. exists (NProp n x). conj; auto. apply (proj2 Hp). split; [exact Hx|]. destruct name; cbn in *; auto.
      + right. conj; eauto.
  Qed.

  Lemma evals_vprops q : forall ex l, evals tlt vmatch g q ex (VertexProperties l) ->
    exists i name exi vs, props_of q = Some (i, name) /\ evals tlt vmatch g i exi (Vertices vs) /\
      forall id n, In (id, n) (vprop_keys l) <->
        exists v, In v vs /\ vid v = id /\ (exists x, get (id, n) (gvp g) = Some x) /\ name_ok name n.
  Proof.
    induction q; intros ex l E; inversion E; subst; cbn [props_of]; eauto.
    do 4 eexists. conj; [reflexivity|eassumption|]. intros id n. now apply vprop_keys_In.
  Qed.
  Lemma evals_eprops q : forall ex l, evals tlt vmatch g q ex (EdgeProperties l) ->
    exists i name exi es, props_of q = Some (i, name) /\ evals tlt vmatch g i exi (Edges es) /\
      forall e n, In (e, n) (eprop_keys l) <-> In e es /\ (exists x, get (e, n) (gep g) = Some x) /\ name_ok name n.
  Proof.
    induction q; intros ex l E; inversion E; subst; cbn [props_of]; eauto.
    do 4 eexists. conj; [reflexivity|eassumption|]. intros e n. now apply eprop_keys_In.
  Qed.
  Lemma evals_not_props q : forall ex v, evals tlt vmatch g q ex v ->
    match v with VertexProperties _ | EdgeProperties _ => True | _ => props_of q = None end.
  Proof. induction q; intros ex w E; inversion E; subst; cbn [props_of]; auto; eapply IHq; eassumption. Qed.
End Props.

(** ** The second call *)

Section Repeat.
  Variable tlt : ident -> ident -> Prop.
  Variable vmatch : json -> json -> Prop.
  Hypothesis T : type_order tlt.
  Notation evals := (evals tlt vmatch).

  (** Deleting properties a second time finds none. *)
  Lemma delete_vprops_again bulk g q ex l ex1 l1 : repeatable bulk g (ODelete q) -> evals g q ex (VertexProperties l) ->
    evals (g_delete_vertex_properties g (vprop_keys l)) q ex1 (VertexProperties l1) -> vprop_keys l1 = [].
  Proof.
    intros Rp E E1. destruct (evals_vprops E) as (i & name & exi & vs & Pq & Ei & K).
    destruct (evals_vprops E1) as (i1 & name1 & exi1 & vs1 & Pq1 & Ei1 & K1). rewrite Pq in Pq1. inversion Pq1; subst i1 name1.
    destruct (props_of_same _ Pq) as [Ix Or]. cbn in Rp. rewrite selects_props, Pq in Rp. cbn in Rp.
    set (g1 := g_delete_vertex_properties g (vprop_keys l)) in *.
    assert (alike (fun n => In n (index_names i)) g g1) as A.
    { split; try reflexivity. intros v n Hn. unfold vprop_fn, g1. cbn.
      rewrite (get_filt_key (fun k => negb (inb k (vprop_keys l)))). destruct (negb _) eqn:B; [reflexivity|].
      apply negb_false_iff, inb_In, K in B as (w & _ & _ & _ & Nm). rewrite Ix in Hn. destruct name as [m|]; cbn in Nm.
      - subst m. tauto.
      - destruct Rp as [_ Rp]. rewrite Rp in Hn. now elim Hn. }
    pose proof (evals_alike Ei eq_refl A) as Ei'.
    assert (ordered i) as Oi by (destruct name; apply Or, Rp).
    destruct (evals_det T Oi Ei' Ei1) as [_ Ev]. inversion Ev; subst vs1.
    destruct (vprop_keys l1) as [|[id n] ks]; [reflexivity|]. exfalso.
    destruct (proj1 (K1 id n) (or_introl eq_refl)) as (v & Hv & Hid & (x & Hx) & Nm).
    apply (vpd_vprops (delete_vprops_claim g (vprop_keys l))) in Hx as [Hx N]. apply N, K. exists v. conj; eauto.
  Qed.
  Lemma delete_eprops_again bulk g q ex l ex1 l1 : repeatable bulk g (ODelete q) -> evals g q ex (EdgeProperties l) ->
    evals (g_delete_edge_properties g (eprop_keys l)) q ex1 (EdgeProperties l1) -> eprop_keys l1 = [].
  Proof.
    intros Rp E E1. destruct (evals_eprops E) as (i & name & exi & vs & Pq & Ei & K).
    destruct (evals_eprops E1) as (i1 & name1 & exi1 & vs1 & Pq1 & Ei1 & K1). rewrite Pq in Pq1. inversion Pq1; subst i1 name1.
    destruct (props_of_same _ Pq) as [Ix Or]. cbn in Rp. rewrite selects_props, Pq in Rp. cbn in Rp.
    set (g1 := g_delete_edge_properties g (eprop_keys l)) in *.
    assert (alike (fun n => In n (index_names i)) g g1) as A.
    { split; try reflexivity. intros v n Hn. unfold eprop_fn, g1. cbn.
      rewrite (get_filt_key (fun k => negb (inb k (eprop_keys l)))). destruct (negb _) eqn:B; [reflexivity|].
      apply negb_false_iff, inb_In, K in B as (_ & _ & Nm). rewrite Ix in Hn. destruct name as [m|]; cbn in Nm.
      - subst m. tauto.
      - destruct Rp as [_ Rp]. rewrite Rp in Hn. now elim Hn. }
    pose proof (evals_alike Ei eq_refl A) as Ei'.
    assert (ordered i) as Oi by (destruct name; apply Or, Rp).
    destruct (evals_det T Oi Ei' Ei1) as [_ Ev]. inversion Ev; subst vs1.
    destruct (eprop_keys l1) as [|[e n] ks]; [reflexivity|]. exfalso.
    destruct (proj1 (K1 e n) (or_introl eq_refl)) as (Hv & (x & Hx) & Nm).
    apply (epd_eprops (delete_eprops_claim g (eprop_keys l))) in Hx as [Hx N]. apply N, K. conj; eauto.
  Qed.

End Repeat.

(** What deletes leave is what was there, minus what went. *)
Lemma restricts_delete_vertices g ids : restricts g (g_delete_vertices g ids).
Proof.
  pose proof (delete_vertices_claim g ids) as C. split; try reflexivity.
  - intros v Hv. apply (vd_vertices C) in Hv. apply Hv.
  - intros e He. apply (vd_edges C) in He. apply He.
  - intros v n Hv. apply (vd_vertices C) in Hv as [_ N]. unfold vprop_fn. cbn.
    rewrite (get_filt_key (fun k => negb (inb (fst k) ids))). cbn [fst]. apply not_inb in N. now rewrite N.
  - intros e n He. apply (vd_edges C) in He as (_ & N1 & N2). unfold eprop_fn. cbn.
    rewrite (get_filt_key (fun k => negb (incident ids (fst k) && mem (fst k) (ge g)))). cbn [fst]. unfold incident.
    apply inb_not_In in N1, N2. now rewrite N1, N2.
Qed.
Lemma restricts_rdelete_vertices g ids : restricts g (r_delete_vertices g ids).
Proof.
  pose proof (r_delete_vertices_claim g ids) as C. split; try reflexivity.
  - intros v Hv. apply (vo_vertices C) in Hv. apply Hv.
  - intros e He. apply (vo_edges C) in He. apply He.
  - intros v n Hv. apply (vo_vertices C) in Hv as [_ N]. unfold vprop_fn. cbn.
    rewrite (get_filt_key (fun k => negb (inb (fst k) ids))). cbn [fst]. apply not_inb in N. now rewrite N.
  - intros e n He. apply (vo_edges C) in He as (_ & N1). unfold eprop_fn. cbn.
    rewrite (get_filt_key (fun k => negb (inb (eout (fst k)) ids && (mem (fst k) (ge g) || mem (reversed (fst k)) (ge g))))). cbn [fst].
    apply inb_not_In in N1. now rewrite N1.
Qed.
Lemma restricts_delete_edges g es : restricts g (g_delete_edges g es).
Proof.
  pose proof (delete_edges_claim g es) as C. split; try reflexivity.
  - intros v Hv. exact Hv.
  - intros e He. apply (ed_edges C) in He. apply He.
  - intros e n He. apply (ed_edges C) in He as [_ N]. unfold eprop_fn. cbn.
    rewrite (get_filt_key (fun k => negb (inb (fst k) es))). cbn [fst]. apply not_inb in N. now rewrite N.
Qed.

Lemma alike_set_vprops names g ids n x : ~ names n -> alike names g (g_set_vertex_properties g ids n x).
Proof.
  intros N. split; try reflexivity. intros v m Hm. unfold vprop_fn. symmetry.
  apply (vps_kept (set_vprops_claim g ids n x)). intros [_ ->]. tauto.
Qed.
Lemma alike_set_eprops names g es n x : ~ names n -> alike names g (g_set_edge_properties g es n x).
Proof.
  intros N. split; try reflexivity. intros v m Hm. unfold eprop_fn. symmetry.
  apply (eps_kept (set_eprops_claim g es n x)). intros [_ ->]. tauto.
Qed.

Record sound_apply (bulk : list bulk_item -> Prop) (ap : graph -> action -> graph) : Prop := {
  sa_other : forall g a, match a with ADeleteVertices _ | ADeleteEdges _ | ABulk _ => True | _ => ap g a = g_apply g a end;
  sa_v : forall g ids, restricts g (ap g (ADeleteVertices ids));
  sa_gone : forall g ids v, is_vertex (ap g (ADeleteVertices ids)) v -> ~ In (vid v) ids;
  sa_vnil : forall g, ap g (ADeleteVertices []) = g;
  sa_vtwice : forall g ids, ap (ap g (ADeleteVertices ids)) (ADeleteVertices ids) = ap g (ADeleteVertices ids);
  sa_e : forall g es, restricts g (ap g (ADeleteEdges es));
  sa_esub : forall g es es1, incl es1 es -> (forall e, In e es1 -> is_edge (ap g (ADeleteEdges es)) e) ->
    ap (ap g (ADeleteEdges es)) (ADeleteEdges es1) = ap g (ADeleteEdges es);
  sa_etwice : forall g es, ap (ap g (ADeleteEdges es)) (ADeleteEdges es) = ap g (ADeleteEdges es);
  sa_bulk : forall g items, bulk items -> ap (ap g (ABulk items)) (ABulk items) = ap g (ABulk items) }.

Lemma g_sound : sound_apply vertices_first g_apply.
Proof.
  split.
  - intros g []; auto.
  - apply restricts_delete_vertices.
  - intros g ids v Hv. apply (vd_vertices (delete_vertices_claim g ids)) in Hv. apply Hv.
  - intros g. cbn. apply delete_vertices_absent; intros; cbn in *; tauto.
  - apply delete_vertices_twice.
  - apply restricts_delete_edges.
  - intros g es es1 I N. destruct es1 as [|e es1].
    + cbn. apply delete_edges_absent; intros; cbn in *; tauto.
    + exfalso. pose proof (N e (or_introl eq_refl)) as He. apply (ed_edges (delete_edges_claim g es)) in He.
      apply He, I. now left.
  - apply delete_edges_twice.
  - apply g_bulk_twice.
Qed.

Lemma filter_nil {A} (p : A -> bool) l : (forall x, In x l -> p x = false) -> filter p l = [].
Proof. induction l as [|x l IH]; cbn; intros H; [reflexivity|]. rewrite H by auto. auto. Qed.

Lemma r_sound : sound_apply (fun _ => True) r_apply.
Proof.
  split.
  - intros g []; auto; reflexivity.
  - apply restricts_rdelete_vertices.
  - intros g ids v Hv. apply (vo_vertices (r_delete_vertices_claim g ids)) in Hv. apply Hv.
  - intros g. cbn. apply rdelete_vertices_absent; intros; cbn in *; tauto.
  - apply rdelete_vertices_twice.
  - intros. apply restricts_delete_edges.
  - intros g es es1 I N. cbn [r_apply]. unfold r_delete_edges at 1. cbn [gv r_delete_edges g_delete_edges].
    assert (filter (fun e => mem (eout e) (gv g)) es1 = []) as ->.
    { apply filter_nil. intros e He. apply not_true_iff_false. intros M. apply N in He as Hg. cbn [r_apply] in Hg. unfold r_delete_edges in Hg.
      apply (ed_edges (delete_edges_claim g _)) in Hg as [_ Hg]. apply Hg, filter_In. split; [now apply I|assumption]. }
    apply delete_edges_absent; intros; cbn in *; tauto.
  - intros. apply rdelete_edges_twice.
  - intros. apply r_bulk_twice.
Qed.

Section Main.
  Variable tlt : ident -> ident -> Prop.
  Variable vmatch : json -> json -> Prop.
  Hypothesis T : type_order tlt.
  Variable bulk : list bulk_item -> Prop.
  Variable ap : graph -> action -> graph.
  Hypothesis SA : sound_apply bulk ap.

  Ltac other := repeat (rewrite (sa_other SA)).

  Theorem repeat_call g o r a r2 a2 : repeatable bulk g o -> resolves tlt vmatch g o r a -> resolves tlt vmatch (ap g a) o r2 a2 ->
    ap (ap g a) a2 = ap g a /\ ((forall q, o = OGet q -> ordered q) -> r2 = again o r).
  Proof.
    assert (forall g, ap g ANone = g) as N0 by (intros g0; apply (sa_other SA g0 ANone)).
    intros Rp R R2. destruct R.
    - (* create_vertex *) rewrite (sa_other SA g (ACreateVertex v)) in *. inversion R2; subst. rewrite (sa_other SA _ (ACreateVertex v)).
      cbn [g_apply again]. split; [apply create_vertex_twice|]. intros _. do 2 f_equal.
      unfold g_create_vertex. destruct (mem (vid v) (gv g)) eqn:M; cbn [gv]; [now rewrite M|now rewrite mem_set, eqb_refl].
    - rewrite (sa_other SA g (ACreateVertex _)) in *. assert (mem id (gv (g_create_vertex g (Vertex id t))) = true) as M.
      { unfold g_create_vertex. cbn [vid]. rewrite H. cbn [gv vt]. now rewrite mem_set, eqb_refl. }
      inversion R2; subst; cbn [g_apply] in *; [congruence|]. rewrite N0. auto.
    - rewrite N0 in *. inversion R2; subst; [congruence|]. rewrite N0. auto.
    - rewrite (sa_other SA g (ACreateEdge e)) in *. inversion R2; subst. rewrite (sa_other SA _ (ACreateEdge e)).
      cbn [g_apply again]. split; [apply create_edge_twice|]. intros _. do 2 f_equal.
      assert (gv (g_create_edge g e) = gv g) as -> by (clear; unfold g_create_edge; destruct (mem (eout e) (gv g) && mem (ein e) (gv g)); reflexivity). reflexivity.
    - rewrite N0 in *. inversion R2; subst; rewrite N0; (split; [reflexivity|]); cbn [again]; intros O.
      + match goal with A : evals _ _ g q ?x ?y |- context [?x ++ [?y]] => destruct (evals_det T (O _ eq_refl) H A) as [-> ->] end. reflexivity.
      + exfalso. eapply fails_not_evals; [reflexivity|eassumption|eassumption].
    - rewrite N0 in *. inversion R2; subst; rewrite N0; (split; [reflexivity|]); cbn [again]; intros O.
      + exfalso. eapply fails_not_evals; [reflexivity|eassumption|eassumption].
      + f_equal. eapply fails_same; [reflexivity|eassumption|eassumption].
    - (* delete vertices *)
      pose proof (sa_v SA g (map vid vs)) as Rs. cbn [repeatable] in Rp. rewrite selects_props, (evals_not_props H) in Rp. cbn in Rp.
      assert (forall v1 ex1, evals tlt vmatch (ap g (ADeleteVertices (map vid vs))) q ex1 v1 -> v1 = Vertices []) as V.
      { intros v1 ex1 E1. pose proof (evals_sub T Rs Rp H E1) as W. pose proof (evals_exists E1) as Ex.
        destruct v1; cbn in W; try contradiction. cbn in Ex. rewrite Forall_forall in Ex. f_equal.
        destruct l as [|v l]; [reflexivity|]. exfalso. apply (sa_gone SA _ _ (Ex v (or_introl eq_refl))). apply in_map, W. now left. }
      inversion R2; subst;
        try (match goal with E1 : evals _ _ _ q _ _ |- _ => pose proof (V _ _ E1) as Ev; inversion Ev; subst end).
      + cbn [map]. rewrite (sa_vnil SA). auto.
      + exfalso. eapply fails_not_evals; [|eassumption|exact H]. now rewrite <- (rs_ix Rs).
    - (* delete edges *)
      pose proof (sa_e SA g es) as Rs. cbn [repeatable] in Rp. rewrite selects_props, (evals_not_props H) in Rp. cbn in Rp.
      inversion R2; subst;
        try (match goal with E1 : evals _ _ _ q _ _ |- _ =>
          pose proof (evals_sub T Rs Rp H E1) as W; cbn in W; try contradiction;
          pose proof (evals_exists E1) as Ex; cbn in Ex; rewrite Forall_forall in Ex end).
      + rewrite (sa_esub SA g W Ex). auto.
      + exfalso. eapply fails_not_evals; [|eassumption|exact H]. now rewrite <- (rs_ix Rs).
    - rewrite (sa_other SA g (ADeleteVProps _)) in *. cbn [g_apply] in *. inversion R2; subst;
        try (match goal with E1 : evals _ _ (g_delete_vertex_properties _ _) q _ _ |- _ =>
          pose proof (evals_same_kind H E1) as W; cbn in W; try contradiction end).
      + rewrite (sa_other SA _ (ADeleteVProps _)). cbn [g_apply again]. split; [|auto].
        match goal with E1 : evals _ _ (g_delete_vertex_properties _ _) q _ _ |- _ => rewrite (delete_vprops_again T bulk Rp H E1) end.
        apply delete_vprops_absent. intros k [].
      + exfalso. eapply fails_not_evals; [|eassumption|exact H]. reflexivity.
    - rewrite (sa_other SA g (ADeleteEProps _)) in *. cbn [g_apply] in *. inversion R2; subst;
        try (match goal with E1 : evals _ _ (g_delete_edge_properties _ _) q _ _ |- _ =>
          pose proof (evals_same_kind H E1) as W; cbn in W; try contradiction end).
      + rewrite (sa_other SA _ (ADeleteEProps _)). cbn [g_apply again]. split; [|auto].
        match goal with E1 : evals _ _ (g_delete_edge_properties _ _) q _ _ |- _ => rewrite (delete_eprops_again T bulk Rp H E1) end.
        apply delete_eprops_absent. intros k [].
      + exfalso. eapply fails_not_evals; [|eassumption|exact H]. reflexivity.
    - rewrite N0 in *. inversion R2; subst;
        try (match goal with E1 : evals _ _ g q _ _ |- _ => pose proof (evals_same_kind H E1) as W; cbn in W; try contradiction end).
      + rewrite N0. auto.
      + exfalso. eapply fails_not_evals; [|eassumption|exact H]. reflexivity.
    - rewrite N0 in *. inversion R2; subst;
        try (exfalso; eapply fails_not_evals; [reflexivity|exact H|eassumption]); rewrite N0; (split; [reflexivity|]); intros _.
      cbn [again]. f_equal. eapply fails_same; [reflexivity|eassumption|eassumption].
    - (* set_properties *)
      rewrite (sa_other SA g (ASetVProps _ _ _)) in *. cbn [g_apply] in *. destruct Rp as [O Ni].
      pose proof (evals_alike H eq_refl (@alike_set_vprops (fun n => In n (index_names q)) g (map vid vs) n x Ni)) as H'.
      inversion R2; subst;
        try (match goal with E1 : evals _ _ (g_set_vertex_properties _ _ _ _) q _ _ |- _ =>
          destruct (evals_det T O H' E1) as [_ Ev]; subst; try discriminate Ev; try discriminate; try (injection Ev as <-) end).
      + rewrite (sa_other SA _ (ASetVProps _ _ _)). cbn [g_apply again]. split; [apply set_vprops_twice|auto].
      + exfalso. eapply fails_not_evals; [|eassumption|exact H]. reflexivity.
    - rewrite (sa_other SA g (ASetEProps _ _ _)) in *. cbn [g_apply] in *. destruct Rp as [O Ni].
      pose proof (evals_alike H eq_refl (@alike_set_eprops (fun n => In n (index_names q)) g es n x Ni)) as H'.
      inversion R2; subst;
        try (match goal with E1 : evals _ _ (g_set_edge_properties _ _ _ _) q _ _ |- _ =>
          destruct (evals_det T O H' E1) as [_ Ev]; subst; try discriminate Ev; try discriminate; try (injection Ev as <-) end).
      + rewrite (sa_other SA _ (ASetEProps _ _ _)). cbn [g_apply again]. split; [apply set_eprops_twice|auto].
      + exfalso. eapply fails_not_evals; [|eassumption|exact H]. reflexivity.
    - rewrite N0 in *. inversion R2; subst;
        try (match goal with E1 : evals _ _ g q _ _ |- _ => pose proof (evals_same_kind H E1) as W; destruct v; cbn in W, H0; try contradiction; try discriminate end).
      all: try (rewrite N0; auto; fail).
      all: exfalso; eapply fails_not_evals; [|eassumption|exact H]; reflexivity.
    - rewrite N0 in *. inversion R2; subst;
        try (exfalso; eapply fails_not_evals; [reflexivity|exact H|eassumption]); rewrite N0; (split; [reflexivity|]); intros _.
      cbn [again]. f_equal. eapply fails_same; [reflexivity|eassumption|eassumption].
    - inversion R2; subst. split; [now apply (sa_bulk SA)|auto].
    - rewrite (sa_other SA g (AIndex n)) in *. inversion R2; subst. rewrite (sa_other SA _ (AIndex n)). split; [apply index_twice|auto].
    - rewrite N0 in *. inversion R2; subst. rewrite N0. auto.
    - inversion R2; subst. split; [apply (sa_vtwice SA)|auto].
    - inversion R2; subst. split; [apply (sa_etwice SA)|auto].
    - rewrite (sa_other SA g (ADeleteVProps _)) in *. inversion R2; subst. rewrite (sa_other SA _ (ADeleteVProps _)). split; [|auto].
      cbn [g_apply]. apply delete_vprops_absent. intros k Hk. apply none_of. intros x G. destruct k as [id n].
      apply (vpd_vprops (delete_vprops_claim g ps)) in G. tauto.
    - rewrite (sa_other SA g (ADeleteEProps _)) in *. inversion R2; subst. rewrite (sa_other SA _ (ADeleteEProps _)). split; [|auto].
      cbn [g_apply]. apply delete_eprops_absent. intros k Hk. apply none_of. intros x G. destruct k as [id n].
      apply (epd_eprops (delete_eprops_claim g ps)) in G. tauto.
    - rewrite (sa_other SA g (ASetVProps _ _ _)) in *. inversion R2; subst. rewrite (sa_other SA _ (ASetVProps _ _ _)). split; [apply set_vprops_twice|auto].
    - rewrite (sa_other SA g (ASetEProps _ _ _)) in *. inversion R2; subst. rewrite (sa_other SA _ (ASetEProps _ _ _)). split; [apply set_eprops_twice|auto].
  Qed.
End Main.
