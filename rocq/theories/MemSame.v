(** * In-memory states that differ only in the order of hash map entries
    answer every call alike. *)
From Verif Require Import Base OMap Json Types Util Db Spec QueryFacts SpecFacts JsonFacts UtilFacts Mem MemFacts MemHist MsgPack Image.

Set Implicit Arguments.

(** ** Containers *)

Lemma c_get_perm c c' v : Permutation c c' -> c_ok c -> c_get v c = c_get v c'.
Proof.
  intros P Hc. pose proof (c_ok_perm P Hc) as Hc'.
  destruct (c_get v c) as [ms|] eqn:E.
  - apply c_get_In in E as (k & Hin & Hk). apply (Permutation_in _ P) in Hin.
    apply (c_ok_get _ _ Hc') in Hin. rewrite <- (c_get_equiv _ _ c' Hk). now symmetry.
  - destruct (c_get v c') as [ms|] eqn:E'; [|reflexivity].
    apply c_get_In in E' as (k & Hin & Hk). apply (Permutation_in _ (Permutation_sym P)) in Hin.
    apply (c_ok_get _ _ Hc) in Hin. rewrite (c_get_equiv _ _ c Hk) in Hin. congruence.
Qed.

Lemma c_update_perm c c' v f : Permutation c c' -> c_ok c -> Permutation (c_update v f c) (c_update v f c').
Proof.
  induction 1 as [|[k ms] l l' P IH|[k ms] [k' ms'] l|l1 l2 l3 P1 IH1 P2 IH2]; intros Hc; cbn [c_update].
  - apply Permutation_refl.
  - inversion Hc as [|? ? Hh Ht]; subst. destruct (key_eq k v); constructor; auto.
  - inversion Hc as [|? ? Hh Ht]; subst. inversion Hh as [|? ? Hxy Hyl]; subst. cbn [fst] in Hxy.
    destruct (key_eq k v) eqn:E, (key_eq k' v) eqn:E'; cbn [c_update]; rewrite ?E, ?E'; try apply perm_swap.
    exfalso. rewrite key_eq_sym in E. rewrite (key_eq_trans _ _ _ E' E) in Hxy. discriminate.
  - eapply perm_trans; [now apply IH1|]. apply IH2. now apply (c_ok_perm P1).
Qed.

Lemma fold_update_perm {A} (step : container -> A -> container) (l : list A) :
  (forall c c' a, Permutation c c' -> c_ok c -> Permutation (step c a) (step c' a)) ->
  (forall c a, c_ok c -> c_ok (step c a)) ->
  forall c c', Permutation c c' -> c_ok c ->
  Permutation (fold_left step l c) (fold_left step l c').
Proof.
  intros HP HO. induction l as [|a l IH]; intros c c' P Hc; cbn [fold_left]; [assumption|]. apply IH; auto.
Qed.

Lemma to_set_perm {A} {O : Ord A} (l l' : list A) : Permutation l l' -> to_set l = to_set l'.
Proof.
  intros P. unfold to_set. f_equal. apply oset_ext. intros k. rewrite !mem_fold_add. f_equal.
  apply eq_true_iff_eq. rewrite !inb_In. split; apply Permutation_in; [assumption|now apply Permutation_sym].
Qed.

(** ** States *)

Definition twin (a b : memory) : Prop := same_memory a b /\ cok a.

Lemma twin_get a b n : twin a b ->
  match get n (m_index a), get n (m_index b) with
  | Some c, Some c' => Permutation c c' /\ c_ok c
  | None, None => True
  | _, _ => False
  end.
Proof.
  intros [S C]. pose proof (sm_index S n) as H. specialize (C n).
  destruct (get n (m_index a)), (get n (m_index b)); auto.
Qed.

Lemma twin_cok a b : twin a b -> cok b.
Proof.
  intros T n c G. pose proof (twin_get n T) as H. rewrite G in H.
  destruct (get n (m_index a)); [|contradiction]. destruct H as [P O]. now apply (c_ok_perm P).
Qed.

Lemma twin_refl a : cok a -> twin a a.
Proof.
  intros C. split; [|assumption]. split; auto. intros n. destruct (get n (m_index a)); auto.
Qed.

(** Updating everything but the index. *)
Lemma twin_with a b v e r vp ep : twin a b ->
  twin (Memory v e r vp ep (m_index a)) (Memory v e r vp ep (m_index b)).
Proof. intros [S C]. split; [|exact C]. split; auto. exact (sm_index S). Qed.

Lemma twin_index a b n c c' : twin a b -> Permutation c c' -> c_ok c ->
  twin (with_index a (set n c (m_index a))) (with_index b (set n c' (m_index b))).
Proof.
  intros [S C] P O. split.
  - destruct S. split; cbn; auto. intros n'. rewrite !get_set. destruct (eqb n' n); [assumption|apply sm_index].
  - intros n' c1 G. cbn in G. rewrite get_set in G. destruct (eqb n' n); [inversion G; subst; assumption|eauto].
Qed.

(** Same result, states still twins. *)
Definition twins {A} (x y : outcome A * memory) : Prop := fst x = fst y /\ twin (snd x) (snd y).

Lemma twins_bind {A B} (x y : outcome A * memory) (f g : A -> memory -> outcome B * memory) :
  twins x y -> (forall r a b, twin a b -> twins (f r a) (g r b)) -> twins (sbind x f) (sbind y g).
Proof.
  destruct x as [r a], y as [r' b]. intros [E T] H. cbn [fst snd] in *. subst r'. cbn [sbind].
  destruct r; [now apply H| |]; split; auto.
Qed.

Lemma twins_resw {A} (f : A -> res) x y : twins x y -> twins (resw f x) (resw f y).
Proof. intros [E T]. split; cbn; [now rewrite E|exact T]. Qed.

Section Twins.
  Variable dbg : bool.
  Variable ord : order.
  Notation ops := (mem_ops dbg ord).

  Lemma unindex_twins a b n v mb : twin a b -> twins (unindex dbg a n v mb) (unindex dbg b n v mb).
  Proof.
    intros T. unfold unindex. pose proof (twin_get n T) as G.
    destruct (get n (m_index a)) as [c|], (get n (m_index b)) as [c'|]; try contradiction.
    - destruct G as [P O]. destruct dbg; [|split; auto]. rewrite <- (c_get_perm v P O).
      destruct (c_get v c) as [ms|]; [|split; auto].
      assert (twin (with_index a (set n (c_update v (del mb) c) (m_index a)))
                   (with_index b (set n (c_update v (del mb) c') (m_index b)))) as T'.
      { apply twin_index; auto; [now apply c_update_perm|now apply c_ok_update]. }
      destruct (mem mb ms); split; auto.
    - split; auto.
  Qed.

  Lemma delete_vprops_twins ps : forall a b, twin a b ->
    twins (mem_delete_vertex_properties dbg a ps) (mem_delete_vertex_properties dbg b ps).
  Proof.
    induction ps as [|p ps IH]; intros a b T; cbn [mem_delete_vertex_properties]; [split; auto|].
    pose proof T as [S C]. rewrite <- (sm_vprops S). destruct (get p (m_vprops a)); [|now apply IH].
    apply twins_bind; [|auto]. apply unindex_twins. unfold with_vprops. destruct S as [-> -> -> _ -> _]. now apply twin_with.
  Qed.
  Lemma delete_eprops_twins ps : forall a b, twin a b ->
    twins (mem_delete_edge_properties dbg a ps) (mem_delete_edge_properties dbg b ps).
  Proof.
    induction ps as [|p ps IH]; intros a b T; cbn [mem_delete_edge_properties]; [split; auto|].
    pose proof T as [S C]. rewrite <- (sm_eprops S). destruct (get p (m_eprops a)); [|now apply IH].
    apply twins_bind; [|auto]. apply unindex_twins. unfold with_eprops. destruct S as [-> -> -> -> _ _]. now apply twin_with.
  Qed.
  Lemma delete_edges_twins es : forall a b, twin a b -> twins (mem_delete_edges dbg a es) (mem_delete_edges dbg b es).
  Proof.
    induction es as [|e es IH]; intros a b T; cbn [mem_delete_edges]; [split; auto|].
    pose proof T as [S C]. cbn [with_edges m_eprops]. rewrite <- (sm_eprops S), <- (sm_edges S), <- (sm_reversed S).
    apply twins_bind; [|auto]. apply delete_eprops_twins.
    unfold with_edges. destruct S as [-> _ _ -> -> _]. now apply twin_with.
  Qed.
  Lemma delete_vertices_twins vs : forall a b, twin a b -> twins (mem_delete_vertices dbg a vs) (mem_delete_vertices dbg b vs).
  Proof.
    induction vs as [|v vs IH]; intros a b T; cbn [mem_delete_vertices]; [split; auto|].
    pose proof T as [S C]. cbn [with_vertices m_vprops]. rewrite <- (sm_vertices S), <- (sm_vprops S).
    apply twins_bind.
    - apply delete_vprops_twins. unfold with_vertices. destruct S as [_ -> -> -> -> _]. now apply twin_with.
    - intros _ a1 b1 T1. rewrite (sm_edges (proj1 T1)). apply twins_bind; [|auto]. now apply delete_edges_twins.
  Qed.
  Lemma create_vertex_twins v a b : twin a b -> twins (mem_create_vertex a v) (mem_create_vertex b v).
  Proof.
    intros T. pose proof T as [S C]. unfold mem_create_vertex. rewrite <- (sm_vertices S).
    destruct (get (vid v) (m_vertices a)); split; auto. cbn [snd].
    unfold with_vertices. destruct S as [_ -> -> -> -> _]. now apply twin_with.
  Qed.
  Lemma create_edge_twins e a b : twin a b -> twins (mem_create_edge a e) (mem_create_edge b e).
  Proof.
    intros T. pose proof T as [S C]. unfold mem_create_edge. rewrite <- (sm_vertices S), <- (sm_edges S), <- (sm_reversed S).
    destruct (_ || _); split; auto. cbn [snd].
    unfold with_edges. rewrite <- (sm_vprops S), <- (sm_eprops S), <- (sm_vertices S). now apply twin_with.
  Qed.
  Lemma index_members_twin a b n v mbs : twin a b -> twin (index_members a n v mbs) (index_members b n v mbs).
  Proof.
    intros T. unfold index_members. pose proof (twin_get n T) as G.
    destruct (get n (m_index a)) as [c|], (get n (m_index b)) as [c'|]; try contradiction; [|assumption].
    destruct G as [P O]. apply twin_index; auto; [now apply c_update_perm|now apply c_ok_update].
  Qed.
  Lemma set_vprops_twins ids n v a b : twin a b ->
    twins (mem_set_vertex_properties dbg a ids n v) (mem_set_vertex_properties dbg b ids n v).
  Proof.
    intros T. apply twins_bind; [now apply delete_vprops_twins|]. intros _ a1 b1 T1. split; [reflexivity|]. cbn [snd].
    apply index_members_twin. pose proof T1 as [S C]. unfold with_vprops. destruct S as [-> -> -> -> -> _]. now apply twin_with.
  Qed.
  Lemma set_eprops_twins es n v a b : twin a b ->
    twins (mem_set_edge_properties dbg a es n v) (mem_set_edge_properties dbg b es n v).
  Proof.
    intros T. apply twins_bind; [now apply delete_eprops_twins|]. intros _ a1 b1 T1. split; [reflexivity|]. cbn [snd].
    apply index_members_twin. pose proof T1 as [S C]. unfold with_eprops. destruct S as [-> -> -> -> -> _]. now apply twin_with.
  Qed.
  Lemma bulk_twins items : forall a b, twin a b -> twins (mem_bulk_insert dbg a items) (mem_bulk_insert dbg b items).
  Proof.
    unfold mem_bulk_insert.
    induction items as [|[v|e|id n v|e n v] items IH]; intros a b T; cbn [default_bulk_insert]; [split; auto|..];
      (apply twins_bind; [|auto]).
    - now apply create_vertex_twins.
    - now apply create_edge_twins.
    - now apply set_vprops_twins.
    - now apply set_eprops_twins.
  Qed.
  Lemma index_twins n a b : twin a b -> twins (mem_index_property a n) (mem_index_property b n).
  Proof.
    intros T. split; [reflexivity|]. cbn [snd mem_index_property].
    assert (index_fresh a n = index_fresh b n) as <-.
    { pose proof (proj1 T) as S. unfold index_fresh. now destruct S as [-> -> _ -> -> _]. }
    assert (forall c c', Permutation c c' -> c_ok c -> twin (with_index a (set n (merge_container c (index_fresh a n)) (m_index a)))
                                            (with_index b (set n (merge_container c' (index_fresh a n)) (m_index b)))) as H.
    { intros c c' P O. apply twin_index; auto.
      - apply fold_update_perm; auto; intros; [now apply c_update_perm|now apply c_ok_update].
      - unfold merge_container. generalize (index_fresh a n) as l. intros l. clear P. revert c O. clear.
        induction l as [|x l IH]; intros c O; cbn [fold_left]; [assumption|]. apply IH. now apply c_ok_update. }
    pose proof (twin_get n T) as G.
    destruct (get n (m_index a)) as [c|], (get n (m_index b)) as [c'|]; try contradiction.
    - apply H; apply G.
    - apply H; [apply Permutation_refl|constructor].
  Qed.

  (** *** Reads *)

  Lemma vertex_ids_twin a b n : twin a b -> mem_vertex_ids_with_property ord a n = mem_vertex_ids_with_property ord b n.
  Proof.
    intros T. unfold mem_vertex_ids_with_property. pose proof (twin_get n T) as G.
    destruct (get n (m_index a)) as [c|], (get n (m_index b)) as [c'|]; try contradiction; [|reflexivity].
    cbn [option_map]. do 4 f_equal. apply to_set_perm. apply Permutation_flat_map, G.
  Qed.
  Lemma edge_ids_twin a b n : twin a b -> mem_edges_with_property ord a n = mem_edges_with_property ord b n.
  Proof.
    intros T. unfold mem_edges_with_property. pose proof (twin_get n T) as G.
    destruct (get n (m_index a)) as [c|], (get n (m_index b)) as [c'|]; try contradiction; [|reflexivity].
    cbn [option_map]. do 4 f_equal. apply to_set_perm. apply Permutation_flat_map, G.
  Qed.
  Lemma vertex_value_twin a b n v : twin a b ->
    mem_vertex_ids_with_property_value ord a n v = mem_vertex_ids_with_property_value ord b n v.
  Proof.
    intros T. unfold mem_vertex_ids_with_property_value. pose proof (twin_get n T) as G.
    destruct (get n (m_index a)) as [c|], (get n (m_index b)) as [c'|]; try contradiction; [|reflexivity].
    cbn [option_map]. destruct G as [P O]. now rewrite (c_get_perm v P O).
  Qed.
  Lemma edge_value_twin a b n v : twin a b ->
    mem_edges_with_property_value ord a n v = mem_edges_with_property_value ord b n v.
  Proof.
    intros T. unfold mem_edges_with_property_value. pose proof (twin_get n T) as G. rewrite <- (sm_edges (proj1 T)).
    destruct (get n (m_index a)) as [c|], (get n (m_index b)) as [c'|]; try contradiction; [|reflexivity].
    cbn [option_map]. destruct G as [P O]. now rewrite (c_get_perm v P O).
  Qed.

  Lemma query_twin a b q : twin a b -> forall out, query_exec ops a q out = query_exec ops b q out.
  Proof.
    intros T. pose proof T as [S _].
    assert (forall d l t vs es, pipe_vertices ops a d l t vs es = pipe_vertices ops b d l t vs es) as PV.
    { intros d l t vs. induction vs as [|v vs IH]; intros es; cbn [pipe_vertices]; [reflexivity|].
      cbn. unfold mem_range_edges, mem_range_reversed_edges. rewrite <- (sm_edges S), <- (sm_reversed S).
      match goal with |- obind ?x _ = obind ?x _ => destruct x end; cbn [obind]; try reflexivity.
      destruct (checked_sub _ _); cbn [obind]; try reflexivity.
      match goal with |- obind ?x _ = obind ?x _ => destruct x end; cbn [obind]; try reflexivity. now rewrite IH. }
    assert (forall d l t es, pipe_edges ops a d l t es = pipe_edges ops b d l t es) as PE.
    { intros d l t es. unfold pipe_edges. cbn. unfold mem_specific_vertices. now rewrite (sm_vertices S). }
    assert (forall name vs, props_of_vertices ops a name vs = props_of_vertices ops b name vs) as QV.
    { intros name vs. induction vs as [|v vs IH]; cbn [props_of_vertices]; [reflexivity|]. rewrite IH.
      destruct name; cbn; unfold mem_vertex_property, mem_all_vertex_properties; now rewrite (sm_vprops S). }
    assert (forall name es, props_of_edges ops a name es = props_of_edges ops b name es) as QE.
    { intros name vs. induction vs as [|v vs IH]; cbn [props_of_edges]; [reflexivity|]. rewrite IH.
      destruct name; cbn; unfold mem_edge_property, mem_all_edge_properties; now rewrite (sm_eprops S). }
    assert (mem_all_vertices a = mem_all_vertices b) as A1 by (unfold mem_all_vertices; now rewrite (sm_vertices S)).
    assert (mem_all_edges a = mem_all_edges b) as A2 by (unfold mem_all_edges; now rewrite (sm_edges S)).
    assert (forall l, mem_specific_vertices a l = mem_specific_vertices b l) as A3 by (intros; unfold mem_specific_vertices; now rewrite (sm_vertices S)).
    assert (forall l, mem_specific_edges a l = mem_specific_edges b l) as A4 by (intros; unfold mem_specific_edges; now rewrite (sm_edges S)).
    assert (forall l, mem_range_vertices a l = mem_range_vertices b l) as A5 by (intros; unfold mem_range_vertices; now rewrite (sm_vertices S)).
    assert (mem_vertex_count a = mem_vertex_count b) as A6 by (unfold mem_vertex_count; now rewrite (sm_vertices S)).
    assert (mem_edge_count a = mem_edge_count b) as A7 by (unfold mem_edge_count; now rewrite (sm_edges S)).
    pose proof (fun n => vertex_ids_twin n T) as I1. pose proof (fun n => edge_ids_twin n T) as I2.
    pose proof (fun n v => vertex_value_twin n v T) as I3. pose proof (fun n v => edge_value_twin n v T) as I4.
    induction q; intros out; cbn [query_exec]; try rewrite IHq;
      cbn [t_all_vertices t_range_vertices t_specific_vertices t_vertex_ids_with_property t_vertex_ids_with_property_value
           t_all_edges t_specific_edges t_edges_with_property t_edges_with_property_value t_vertex_count t_edge_count mem_ops];
      rewrite ?A1, ?A2, ?A3, ?A4, ?A5, ?A6, ?A7, ?I1, ?I2, ?I3, ?I4; try reflexivity.
    - destruct start; rewrite ?A5; reflexivity.
    - destruct (indexed_or_err _); cbn [obind]; try reflexivity. now rewrite A3.
    - destruct (indexed_or_err _); cbn [obind]; try reflexivity. now rewrite A3.
    - destruct (query_exec _ b q out) as [o1| |]; cbn [obind]; try reflexivity. destruct (pop o1) as [[p o]| |]; cbn [obind]; try reflexivity.
      destruct p; try reflexivity; now rewrite ?PE, ?PV.
    - destruct (query_exec _ b q out) as [o1| |]; cbn [obind]; try reflexivity. destruct (pop o1) as [[p o]| |]; cbn [obind]; try reflexivity.
      destruct p; try reflexivity; now rewrite ?QE, ?QV.
  Qed.

  Theorem exec_twins a b o : twin a b -> twins (exec ops a o) (exec ops b o).
  Proof.
    intros T. pose proof (fun q => query_twin q T) as Q.
    destruct o; cbn [exec].
    - apply twins_resw. now apply create_vertex_twins.
    - apply twins_resw. unfold db_create_vertex_from_type. apply twins_bind; [now apply create_vertex_twins|].
      intros [|] a1 b1 T1; split; auto.
    - apply twins_resw. now apply create_edge_twins.
    - unfold db_get. rewrite Q. split; auto.
    - apply twins_resw. unfold db_delete. rewrite Q. destruct (obind _ _) as [[[l|l|l|l|l] out]|e|].
      + now apply delete_vertices_twins.
      + now apply delete_edges_twins.
      + split; auto.
      + now apply delete_vprops_twins.
      + now apply delete_eprops_twins.
      + split; auto.
      + split; auto.
    - apply twins_resw. unfold db_set_properties. rewrite Q. destruct (obind _ _) as [[[l|l|l|l|l] out]|e|];
        try (split; auto; fail); [now apply set_vprops_twins|now apply set_eprops_twins].
    - apply twins_resw. now apply bulk_twins.
    - apply twins_resw. now apply index_twins.
    - split; auto.
    - apply twins_resw. now apply delete_vertices_twins.
    - apply twins_resw. now apply delete_edges_twins.
    - apply twins_resw. now apply delete_vprops_twins.
    - apply twins_resw. now apply delete_eprops_twins.
    - apply twins_resw. now apply set_vprops_twins.
    - apply twins_resw. now apply set_eprops_twins.
  Qed.
End Twins.

(** ** Databases *)

Definition twin_db (a b : mem_db) : Prop :=
  match a, b with Some a, Some b => twin a b | None, None => True | _, _ => False end.

Lemma step_twins dbg a b x : twin_db a b ->
  fst (mem_step dbg a x) = fst (mem_step dbg b x) /\ twin_db (snd (mem_step dbg a x)) (snd (mem_step dbg b x)).
Proof.
  destruct a as [a|], b as [b|]; cbn [twin_db]; intros T; try contradiction; [|split; reflexivity].
  cbn [mem_step]. destruct (exec_twins dbg (fst x) (snd x) T) as [E T'].
  destruct (exec (mem_ops dbg (fst x)) a (snd x)) as [r a'], (exec (mem_ops dbg (fst x)) b (snd x)) as [r' b'].
  cbn [fst snd] in *. subst r'. destruct r; cbn; auto.
Qed.

Lemma trace_twins dbg h : forall a b, twin_db a b ->
  fst (mem_trace dbg a h) = fst (mem_trace dbg b h) /\ twin_db (snd (mem_trace dbg a h)) (snd (mem_trace dbg b h)).
Proof.
  induction h as [|x h IH]; intros a b T; cbn [mem_trace]; [split; auto|].
  destruct (step_twins dbg a b x T) as [E T']. destruct (mem_step dbg a x) as [r a'], (mem_step dbg b x) as [r' b'].
  cbn [fst snd] in *. subst r'. destruct (IH a' b' T') as [E' T'']. destruct (mem_trace dbg a' h), (mem_trace dbg b' h).
  cbn [fst snd] in *. split; [now f_equal|assumption].
Qed.

Lemma twin_gof a b : twin a b -> gof a = gof b.
Proof.
  intros T. pose proof T as [S _]. unfold gof. rewrite (sm_vertices S), (sm_edges S), (sm_vprops S), (sm_eprops S). f_equal.
  apply oset_ext. intros n. pose proof (twin_get n T) as G. rewrite !mem_dom. unfold mem.
  destruct (get n (m_index a)), (get n (m_index b)); auto; contradiction.
Qed.
