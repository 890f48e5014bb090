(** * In-memory datastore: calls stay within their footprint (Foot.v)

    Two states may differ in parts a call does not depend on; the call then
    returns the same and changes both in the same way.  Index entries belong to
    the property they were made for. *)
From Verif Require Import Base OMap Json Types Util Db Mem Rdb Spec QueryFacts SpecFacts JsonFacts UtilFacts MemFacts MemRefine MemHist RdbSpec Stages Effects
  Conc Foot SpecFoot.

Set Implicit Arguments.

(** The index of [n] lists [mb] under [v]. *)
Definition ixhas (m : memory) (n : ident) (v : json) (mb : member) : bool :=
  match get n (m_index m) with Some c => c_has c v mb | None => false end.
Definition slot (mb : member) (n : ident) : part :=
  match mb with MVertex id => AVProp id n | MEdge e => AnEProp e n end.
Definition agree (P : part -> Prop) (m m' : memory) : Prop :=
  same_on P (gof m) (gof m') /\ forall mb n, P (slot mb n) -> forall v, ixhas m' n v mb = ixhas m n v mb.

Lemma agree_refl P m : agree P m m.
Proof. split; [apply same_refl|reflexivity]. Qed.
Lemma agree_sym P m m' : agree P m m' -> agree P m' m.
Proof. intros [A B]. split; [now apply same_sym|]. intros. symmetry. now apply B. Qed.
Lemma agree_trans P m m' m'' : agree P m m' -> agree P m' m'' -> agree P m m''.
Proof.
  intros [[I1 A1] B1] [[I2 A2] B2]. split; [split; [congruence|]|].
  - intros x Px. eapply same_part_trans; eauto.
  - intros mb n Ps v. rewrite B2, B1; auto.
Qed.
Lemma agree_sub (P Q : part -> Prop) m m' : agree P m m' -> (forall x, Q x -> P x) -> agree Q m m'.
Proof. intros [A B] S. split; [eapply same_sub; eauto|auto]. Qed.

Lemma named_same P m m' n : agree P m m' -> mem n (m_index m') = mem n (m_index m).
Proof. intros [[I _] _]. cbn in I. now rewrite <- mem_dom, I, mem_dom. Qed.

(** ** Updates of one table *)

Lemma agree_vertices (P : part -> Prop) m m' x x' : agree P m m' -> (forall id, P (AVertex id) -> get id x' = get id x) ->
  agree P (with_vertices m x) (with_vertices m' x').
Proof. intros [[I A] B] E. split; [split; [exact I|]|exact B]. intros [] Px; try (exact (A _ Px)). now apply E. Qed.
Lemma agree_edges (P : part -> Prop) m m' x y x' y' : agree P m m' -> (forall e, P (AnEdge e) -> mem e x' = mem e x) ->
  agree P (with_edges m x y) (with_edges m' x' y').
Proof. intros [[I A] B] E. split; [split; [exact I|]|exact B]. intros [] Px; try (exact (A _ Px)). now apply E. Qed.
Lemma agree_vprops (P : part -> Prop) m m' x x' : agree P m m' -> (forall id n, P (AVProp id n) -> get (id, n) x' = get (id, n) x) ->
  agree P (with_vprops m x) (with_vprops m' x').
Proof. intros [[I A] B] E. split; [split; [exact I|]|exact B]. intros [] Px; try (exact (A _ Px)). now apply E. Qed.
Lemma agree_eprops (P : part -> Prop) m m' x x' : agree P m m' -> (forall e n, P (AnEProp e n) -> get (e, n) x' = get (e, n) x) ->
  agree P (with_eprops m x) (with_eprops m' x').
Proof. intros [[I A] B] E. split; [split; [exact I|]|exact B]. intros [] Px; try (exact (A _ Px)). now apply E. Qed.

Lemma gof_index m x : (forall k, mem k x = mem k (m_index m)) -> gof (with_index m x) = gof m.
Proof. intros E. unfold gof, with_index. cbn. f_equal. apply oset_ext. intros k. now rewrite !mem_dom. Qed.

(** The two states change in the same way, with the same result. *)
Definition lock {A} (P : part -> Prop) (x x' : outcome A * memory) : Prop :=
  fst x' = fst x /\ agree P (snd x) (snd x').

Lemma lock_bind {A B} P (x x' : outcome A * memory) (f f' : A -> memory -> outcome B * memory) :
  lock P x x' -> (forall a m m', agree P m m' -> lock P (f a m) (f' a m')) -> lock P (sbind x f) (sbind x' f').
Proof.
  intros [E A0] F. destruct x as [r m], x' as [r' m']. cbn in E, A0. subst r'. destruct r as [a|e|]; cbn [sbind]; [now apply F|split; auto..].
Qed.

(** A step only changes what is not in [P]. *)
Definition within {A} (P : part -> Prop) (m : memory) (x : outcome A * memory) : Prop := agree P m (snd x).

Lemma within_bind {A B} P m (x : outcome A * memory) (f : A -> memory -> outcome B * memory) :
  within P m x -> (forall a m', within P m' (f a m')) -> within P m (sbind x f).
Proof.
  intros W F. destruct x as [[a|e|] m']; cbn [sbind]; unfold within in *; cbn [snd] in *; auto.
  eapply agree_trans; [exact W|]. apply F.
Qed.

Section Build.
  Variable dbg : bool.

  Lemma unindex_eq m n v mb :
    fst (unindex dbg m n v mb) = (if dbg && (mem n (m_index m) && negb (ixhas m n v mb)) then Panic else Ok tt) /\
    gof (snd (unindex dbg m n v mb)) = gof m /\
    forall n' w mb', ixhas (snd (unindex dbg m n v mb)) n' w mb' =
      (if dbg && (eqb n' n && (key_eq v w && eqb mb' mb)) then false else ixhas m n' w mb').
  Proof.
    unfold unindex. destruct (get n (m_index m)) as [c|] eqn:G.
    2:{ assert (mem n (m_index m) = false) as -> by now apply mem_false. cbn [andb fst snd]. rewrite andb_false_r. conj; auto.
        intros n' w mb'. destruct dbg; [|reflexivity]. cbn [andb]. destruct (eqb n' n) eqn:E; [|reflexivity]. cbn [andb]. apply eqb_eq in E as ->.
        unfold ixhas. rewrite G. now destruct (_ && _). }
    assert (mem n (m_index m) = true) as -> by (apply mem_get; eauto). unfold ixhas. rewrite G. cbn [andb].
    destruct dbg; [|cbn; auto]. cbn [andb].
    destruct (c_get v c) as [ms|] eqn:Gv.
    - assert (c_has c v mb = mem mb ms) as Hh by (unfold c_has; now rewrite Gv). rewrite Hh.
      set (m' := with_index m (set n (c_update v (del mb) c) (m_index m))).
      assert ((if mem mb ms then (Ok tt, m') else (Panic, m')) = ((if mem mb ms then Ok tt else Panic), m')) as -> by now destruct (mem mb ms).
      cbn [fst snd]. conj.
      + now destruct (mem mb ms).
      + apply gof_index. intros k. rewrite mem_set. destruct (eqb k n) eqn:E; [|reflexivity]. apply eqb_eq in E as ->. symmetry. apply mem_get; eauto.
      + intros n' w mb'. unfold m', with_index. cbn [m_index]. rewrite get_set. destruct (eqb n' n) eqn:E; [|reflexivity]. apply eqb_eq in E as ->.
        rewrite G, c_has_del. cbn [andb]. now destruct (key_eq v w && eqb mb' mb).
    - cbn [fst snd]. conj; auto.
      + unfold c_has. now rewrite Gv.
      + intros n' w mb'. destruct (eqb n' n) eqn:E; [|reflexivity]. apply eqb_eq in E as ->. rewrite G. cbn [andb].
        destruct (key_eq v w) eqn:K; [|reflexivity]. rewrite <- (c_has_equiv _ _ c mb' K). unfold c_has. rewrite Gv. now destruct (eqb mb' mb).
  Qed.

  Lemma unindex_lock (P : part -> Prop) m m' n v mb : agree P m m' -> P (slot mb n) -> lock P (unindex dbg m n v mb) (unindex dbg m' n v mb).
  Proof.
    intros A Ps. destruct (unindex_eq m n v mb) as (E1 & G1 & X1), (unindex_eq m' n v mb) as (E2 & G2 & X2).
    split; [rewrite E1, E2, (named_same n A), (proj2 A) by exact Ps; reflexivity|].
    split; [rewrite G1, G2; exact (proj1 A)|]. intros mb' n' Pm w. rewrite X1, X2, (proj2 A); auto.
  Qed.
  Lemma slot_inj mb mb' n n' : slot mb n = slot mb' n' -> mb = mb' /\ n = n'.
  Proof. destruct mb, mb'; cbn; intros E; inversion E; auto. Qed.
  Lemma unindex_within (P : part -> Prop) m n v mb : ~ P (slot mb n) -> within P m (unindex dbg m n v mb).
  Proof.
    intros Ps. destruct (unindex_eq m n v mb) as (_ & G & X). split; [rewrite G; apply same_refl|].
    intros mb' n' Pm w. rewrite X. destruct (eqb n' n) eqn:E1; cbn [andb]; [|now rewrite andb_false_r].
    destruct (eqb mb' mb) eqn:E2; [|now rewrite !andb_false_r]. apply eqb_eq in E1, E2. subst. contradiction.
  Qed.

  Lemma members_eq m n v mbs :
    gof (index_members m n v mbs) = gof m /\
    forall n' w mb', ixhas (index_members m n v mbs) n' w mb' =
      ((mem n (m_index m) && (eqb n' n && (key_eq v w && inb mb' mbs))) || ixhas m n' w mb').
  Proof.
    split; [apply gof_index_members|]. intros n' w mb'. unfold ixhas, index_members. destruct (get n (m_index m)) as [c|] eqn:G.
    - assert (mem n (m_index m) = true) as -> by (apply mem_get; eauto). unfold with_index. cbn [m_index andb]. rewrite get_set.
      destruct (eqb n' n) eqn:E; [|reflexivity]. apply eqb_eq in E as ->. rewrite c_has_add_all, G. reflexivity.
    - assert (mem n (m_index m) = false) as -> by now apply mem_false. reflexivity.
  Qed.
  Lemma members_lock (P : part -> Prop) m m' n v mbs : agree P m m' -> agree P (index_members m n v mbs) (index_members m' n v mbs).
  Proof.
    intros A. destruct (members_eq m n v mbs) as (G1 & X1), (members_eq m' n v mbs) as (G2 & X2). split; [rewrite G1, G2; exact (proj1 A)|].
    intros mb n' Pm w. rewrite X1, X2, (named_same n A), (proj2 A); auto.
  Qed.
  Lemma members_within (P : part -> Prop) m n v mbs : (forall mb, In mb mbs -> ~ P (slot mb n)) -> agree P m (index_members m n v mbs).
  Proof.
    intros N. destruct (members_eq m n v mbs) as (G & X). split; [rewrite G; apply same_refl|]. intros mb n' Pm w. rewrite X.
    destruct (eqb n' n) eqn:E1; cbn [andb]; [|now rewrite andb_false_r]. destruct (inb mb mbs) eqn:E2; [|now rewrite !andb_false_r].
    apply inb_In in E2. apply eqb_eq in E1 as ->. now elim (N mb).
  Qed.

  (** ** Deleting properties *)

  Lemma delete_vprops_lock (P : part -> Prop) ps : (forall p, In p ps -> P (AVProp (fst p) (snd p))) -> forall m m', agree P m m' ->
    lock P (mem_delete_vertex_properties dbg m ps) (mem_delete_vertex_properties dbg m' ps).
  Proof.
    induction ps as [|[id n] ps IH]; intros Pp m m' A; cbn [mem_delete_vertex_properties]; [split; auto|].
    assert (P (AVProp id n)) as P0 by (apply (Pp (id, n)); now left).
    rewrite (proj2 (proj1 A) _ P0 : get (id, n) (m_vprops m') = get (id, n) (m_vprops m)).
    destruct (get (id, n) (m_vprops m)) as [v|]; [|apply IH; auto; intros p Hp; apply Pp; now right].
    apply lock_bind.
    - apply unindex_lock; [|exact P0]. apply agree_vprops; [exact A|]. intros i k Pi. rewrite !get_del. now rewrite (proj2 (proj1 A) _ Pi : get (i, k) (m_vprops m') = _).
    - intros _ m1 m2 A1. apply IH; [|exact A1]. intros p Hp. apply Pp. now right.
  Qed.
  Lemma delete_eprops_lock (P : part -> Prop) ps : (forall p, In p ps -> P (AnEProp (fst p) (snd p))) -> forall m m', agree P m m' ->
    lock P (mem_delete_edge_properties dbg m ps) (mem_delete_edge_properties dbg m' ps).
  Proof.
    induction ps as [|[id n] ps IH]; intros Pp m m' A; cbn [mem_delete_edge_properties]; [split; auto|].
    assert (P (AnEProp id n)) as P0 by (apply (Pp (id, n)); now left).
    rewrite (proj2 (proj1 A) _ P0 : get (id, n) (m_eprops m') = get (id, n) (m_eprops m)).
    destruct (get (id, n) (m_eprops m)) as [v|]; [|apply IH; auto; intros p Hp; apply Pp; now right].
    apply lock_bind.
    - apply unindex_lock; [|exact P0]. apply agree_eprops; [exact A|]. intros i k Pi. rewrite !get_del. now rewrite (proj2 (proj1 A) _ Pi : get (i, k) (m_eprops m') = _).
    - intros _ m1 m2 A1. apply IH; [|exact A1]. intros p Hp. apply Pp. now right.
  Qed.

  Lemma delete_vprops_within (P : part -> Prop) ps : (forall p, In p ps -> ~ P (AVProp (fst p) (snd p))) -> forall m,
    within P m (mem_delete_vertex_properties dbg m ps).
  Proof.
    induction ps as [|[id n] ps IH]; intros Pp m; cbn [mem_delete_vertex_properties]; [apply agree_refl|].
    assert (~ P (AVProp id n)) as P0 by (apply (Pp (id, n)); now left). assert (forall p, In p ps -> ~ P (AVProp (fst p) (snd p))) as Pp' by (intros p Hp; apply Pp; now right).
    destruct (get (id, n) (m_vprops m)) as [v|]; [|now apply IH].
    apply within_bind; [|intros _ m'; now apply IH].
    eapply agree_trans; [|exact (@unindex_within P _ n v (MVertex id) P0)].
    apply (@agree_vprops P m m (m_vprops m)); [apply agree_refl|]. intros i k Pi. apply get_del_other. intros E. injection E as -> ->. contradiction.
  Qed.
  Lemma delete_eprops_within (P : part -> Prop) ps : (forall p, In p ps -> ~ P (AnEProp (fst p) (snd p))) -> forall m,
    within P m (mem_delete_edge_properties dbg m ps).
  Proof.
    induction ps as [|[id n] ps IH]; intros Pp m; cbn [mem_delete_edge_properties]; [apply agree_refl|].
    assert (~ P (AnEProp id n)) as P0 by (apply (Pp (id, n)); now left). assert (forall p, In p ps -> ~ P (AnEProp (fst p) (snd p))) as Pp' by (intros p Hp; apply Pp; now right).
    destruct (get (id, n) (m_eprops m)) as [v|]; [|now apply IH].
    apply within_bind; [|intros _ m'; now apply IH].
    eapply agree_trans; [|exact (@unindex_within P _ n v (MEdge id) P0)].
    apply (@agree_eprops P m m (m_eprops m)); [apply agree_refl|]. intros i k Pi. apply get_del_other. intros E. injection E as -> ->. contradiction.
  Qed.

  (** ** Deleting edges and vertices *)

  Lemma owner_same {A V} {O : Ord A} (o : A) (t t' : omap (A * ident) V) : (forall n, get (o, n) t' = get (o, n) t) ->
    take_while (fun kv => eqb (fst (fst kv)) o) (from (o, empty_ident) t') = take_while (fun kv => eqb (fst (fst kv)) o) (from (o, empty_ident) t).
  Proof.
    intros E. apply (@sorted_ext _ (klt (V := V))).
    - intros x. apply klt_irrefl.
    - intros x y. apply klt_asym.
    - apply take_while_sorted, from_sorted.
    - apply take_while_sorted, from_sorted.
    - intros [[o' n] v]. rewrite !owner_range. cbn [fst snd]. split; intros [-> H]; (split; [reflexivity|]); [rewrite <- E|rewrite E]; exact H.
  Qed.
  Lemma owner_In {A V} {O : Ord A} (o : A) (t : omap (A * ident) V) p :
    In p (map fst (take_while (fun kv => eqb (fst (fst kv)) o) (from (o, empty_ident) t))) -> fst p = o.
  Proof. intros Hp. apply in_map_iff in Hp as (kv & <- & Hp). now apply owner_range in Hp as [-> _]. Qed.

  Lemma delete_edges_lock (P : part -> Prop) es : (forall e, In e es -> P (AnEdge e) /\ forall n, P (AnEProp e n)) -> forall m m', agree P m m' ->
    lock P (mem_delete_edges dbg m es) (mem_delete_edges dbg m' es).
  Proof.
    induction es as [|e es IH]; intros Pe m m' A; cbn [mem_delete_edges]; [split; auto|].
    destruct (Pe e (or_introl eq_refl)) as [P0 Pn].
    assert (forall x, In x es -> P (AnEdge x) /\ forall n, P (AnEProp x n)) as Pe' by (intros x Hx; apply Pe; now right).
    apply lock_bind; [|intros _ m1 m2 A1; now apply IH].
    cbn [with_edges m_eprops]. rewrite (@owner_same _ _ _ e (m_eprops m) (m_eprops m')) by (intros n; exact (proj2 (proj1 A) _ (Pn n))).
    apply delete_eprops_lock.
    - intros p Hp. apply owner_In in Hp as ->. apply Pn.
    - apply agree_edges; [exact A|]. intros f Pf. rewrite !mem_del. now rewrite (proj2 (proj1 A) _ Pf : mem f (m_edges m') = _).
  Qed.
  Lemma delete_edges_within (P : part -> Prop) es : (forall e, In e es -> ~ P (AnEdge e) /\ forall n, ~ P (AnEProp e n)) -> forall m,
    within P m (mem_delete_edges dbg m es).
  Proof.
    induction es as [|e es IH]; intros Pe m; cbn [mem_delete_edges]; [apply agree_refl|].
    destruct (Pe e (or_introl eq_refl)) as [P0 Pn].
    assert (forall x, In x es -> ~ P (AnEdge x) /\ forall n, ~ P (AnEProp x n)) as Pe' by (intros x Hx; apply Pe; now right).
    apply within_bind; [|intros _ m1; now apply IH].
    eapply agree_trans; [|apply delete_eprops_within].
    - apply (@agree_edges P m m (m_edges m) (m_reversed m)); [apply agree_refl|]. intros f Pf. rewrite mem_del.
      destruct (eqb f e) eqn:E; [apply eqb_eq in E as ->; contradiction|reflexivity].
    - intros p Hp. apply owner_In in Hp as ->. apply Pn.
  Qed.

  Lemma touched_In id (t : oset edge) e : In e (filter (fun e => eqb (eout e) id || eqb (ein e) id) (keys t)) <-> touches e id /\ mem e t = true.
  Proof. rewrite filter_In, keys_In, orb_true_iff, !eqb_eq. unfold touches. tauto. Qed.

  Lemma delete_vertices_lock (P : part -> Prop) vs : (forall v x, In v vs -> goes_with (AVertex (vid v)) x -> P x) -> forall m m', agree P m m' ->
    lock P (mem_delete_vertices dbg m vs) (mem_delete_vertices dbg m' vs).
  Proof.
    induction vs as [|v vs IH]; intros Pv m m' A; cbn [mem_delete_vertices]; [split; auto|].
    assert (forall x, goes_with (AVertex (vid v)) x -> P x) as P0 by (intros x; apply Pv; now left).
    assert (forall w x, In w vs -> goes_with (AVertex (vid w)) x -> P x) as Pv' by (intros w x Hw; apply Pv; now right).
    apply lock_bind.
    - cbn [with_vertices m_vprops]. rewrite (@owner_same _ _ _ (vid v) (m_vprops m) (m_vprops m')).
      2:{ intros n. refine (proj2 (proj1 A) (AVProp (vid v) n) _). apply P0. right. left. eauto. }
      apply delete_vprops_lock.
      + intros p Hp. apply owner_In in Hp as ->. apply P0. right. left. eauto.
      + apply agree_vertices; [exact A|]. intros i Pi. rewrite !get_del. now rewrite (proj2 (proj1 A) _ Pi : get i (m_vertices m') = _).
    - intros _ m1 m2 A1.
      assert (filter (fun e => eqb (eout e) (vid v) || eqb (ein e) (vid v)) (keys (m_edges m2)) =
              filter (fun e => eqb (eout e) (vid v) || eqb (ein e) (vid v)) (keys (m_edges m1))) as ->.
      { apply (@sorted_ext _ lt).
        - intros x. apply lt_irrefl.
        - intros x y. apply lt_asym.
        - apply sorted_filter, keys_sorted.
        - apply sorted_filter, keys_sorted.
        - intros e. rewrite !touched_In. assert (touches e (vid v) -> mem e (m_edges m2) = mem e (m_edges m1)) as X.
          { intros T. refine (proj2 (proj1 A1) (AnEdge e) _). apply P0. right. right. eauto. }
          split; intros [T M]; (split; [exact T|]); [rewrite <- X|rewrite X]; auto. }
      apply lock_bind; [|intros _ m3 m4 A3; now apply IH].
      apply delete_edges_lock; [|exact A1]. intros e He. apply touched_In in He as [T _]. split; [|intros n]; apply P0; right; right; exists e; eauto.
  Qed.
  Lemma delete_vertices_within (P : part -> Prop) vs : (forall v x, In v vs -> goes_with (AVertex (vid v)) x -> ~ P x) -> forall m,
    within P m (mem_delete_vertices dbg m vs).
  Proof.
    induction vs as [|v vs IH]; intros Pv m; cbn [mem_delete_vertices]; [apply agree_refl|].
    assert (forall x, goes_with (AVertex (vid v)) x -> ~ P x) as P0 by (intros x; apply Pv; now left).
    assert (forall w x, In w vs -> goes_with (AVertex (vid w)) x -> ~ P x) as Pv' by (intros w x Hw; apply Pv; now right).
    apply within_bind.
    - eapply agree_trans; [|apply delete_vprops_within].
      + apply (@agree_vertices P m m (m_vertices m)); [apply agree_refl|]. intros i Pi. apply get_del_other. intros ->. apply (P0 (AVertex (vid v))); [now left|exact Pi].
      + intros p Hp. apply owner_In in Hp as ->. apply P0. right. left. eauto.
    - intros _ m2. apply within_bind; [|intros _ m3; now apply IH].
      apply delete_edges_within. intros e He. apply touched_In in He as [T _]. split; [|intros n]; apply P0; right; right; exists e; eauto.
  Qed.

  (** ** Setting properties, creating, bulk insertion *)

  Lemma set_vprops_lock (P : part -> Prop) ids n v : (forall id, In id ids -> P (AVProp id n)) -> forall m m', agree P m m' ->
    lock P (mem_set_vertex_properties dbg m ids n v) (mem_set_vertex_properties dbg m' ids n v).
  Proof.
    intros Pi m m' A. unfold mem_set_vertex_properties. apply lock_bind.
    - apply delete_vprops_lock; [|exact A]. intros p Hp. apply in_map_iff in Hp as (id & <- & Hid). now apply Pi.
    - intros _ m1 m2 A1. split; [reflexivity|]. cbn [snd]. apply members_lock, agree_vprops; [exact A1|]. intros id k Pk. rewrite !get_fold_set.
      now rewrite (proj2 (proj1 A1) _ Pk : get (id, k) (m_vprops m2) = _).
  Qed.
  Lemma set_vprops_within (P : part -> Prop) ids n v : (forall id, In id ids -> ~ P (AVProp id n)) -> forall m,
    within P m (mem_set_vertex_properties dbg m ids n v).
  Proof.
    intros Pi m. unfold mem_set_vertex_properties. apply within_bind.
    - apply delete_vprops_within. intros p Hp. apply in_map_iff in Hp as (id & <- & Hid). now apply Pi.
    - intros _ m1. unfold within. cbn [snd]. eapply agree_trans; [|apply members_within].
      + apply (@agree_vprops P m1 m1 (m_vprops m1)); [apply agree_refl|]. intros id k Pk. rewrite get_fold_set. cbn [fst snd].
        destruct (inb id ids && eqb k n) eqn:E; [|reflexivity]. apply andb_true_iff in E as [E1 E2]. apply inb_In in E1. apply eqb_eq in E2 as ->. now elim (Pi id).
      + intros mb Hm. apply in_map_iff in Hm as (id & <- & Hid). now apply Pi.
  Qed.
  Lemma set_eprops_lock (P : part -> Prop) es n v : (forall e, In e es -> P (AnEProp e n)) -> forall m m', agree P m m' ->
    lock P (mem_set_edge_properties dbg m es n v) (mem_set_edge_properties dbg m' es n v).
  Proof.
    intros Pi m m' A. unfold mem_set_edge_properties. apply lock_bind.
    - apply delete_eprops_lock; [|exact A]. intros p Hp. apply in_map_iff in Hp as (id & <- & Hid). now apply Pi.
    - intros _ m1 m2 A1. split; [reflexivity|]. cbn [snd]. apply members_lock, agree_eprops; [exact A1|]. intros id k Pk. rewrite !get_fold_set.
      now rewrite (proj2 (proj1 A1) _ Pk : get (id, k) (m_eprops m2) = _).
  Qed.
  Lemma set_eprops_within (P : part -> Prop) es n v : (forall e, In e es -> ~ P (AnEProp e n)) -> forall m,
    within P m (mem_set_edge_properties dbg m es n v).
  Proof.
    intros Pi m. unfold mem_set_edge_properties. apply within_bind.
    - apply delete_eprops_within. intros p Hp. apply in_map_iff in Hp as (id & <- & Hid). now apply Pi.
    - intros _ m1. unfold within. cbn [snd]. eapply agree_trans; [|apply members_within].
      + apply (@agree_eprops P m1 m1 (m_eprops m1)); [apply agree_refl|]. intros id k Pk. rewrite get_fold_set. cbn [fst snd].
        destruct (inb id es && eqb k n) eqn:E; [|reflexivity]. apply andb_true_iff in E as [E1 E2]. apply inb_In in E1. apply eqb_eq in E2 as ->. now elim (Pi id).
      + intros mb Hm. apply in_map_iff in Hm as (id & <- & Hid). now apply Pi.
  Qed.

  Lemma create_vertex_lock (P : part -> Prop) m m' v : P (AVertex (vid v)) -> agree P m m' -> lock P (mem_create_vertex m v) (mem_create_vertex m' v).
  Proof.
    intros Pv A. unfold mem_create_vertex. rewrite (proj2 (proj1 A) _ Pv : get (vid v) (m_vertices m') = get (vid v) (m_vertices m)).
    destruct (get (vid v) (m_vertices m)); (split; [reflexivity|]); cbn [snd]; auto.
    apply agree_vertices; [exact A|]. intros id Pi. rewrite !get_set. now rewrite (proj2 (proj1 A) _ Pi : get id (m_vertices m') = _).
  Qed.
  Lemma create_vertex_within (P : part -> Prop) m v : ~ P (AVertex (vid v)) -> within P m (mem_create_vertex m v).
  Proof.
    intros Pv. unfold mem_create_vertex. destruct (get (vid v) (m_vertices m)); [apply agree_refl|].
    apply (@agree_vertices P m m (m_vertices m)); [apply agree_refl|]. intros id Pi. apply get_set_other. intros ->. contradiction.
  Qed.
  Lemma create_edge_lock (P : part -> Prop) m m' e : P (AVertex (eout e)) -> P (AVertex (ein e)) -> agree P m m' -> lock P (mem_create_edge m e) (mem_create_edge m' e).
  Proof.
    intros Po Pi A. unfold mem_create_edge.
    rewrite (@same_mem (gof m) (gof m') (eout e) (proj2 (proj1 A) _ Po) : mem (eout e) (m_vertices m') = mem (eout e) (m_vertices m)).
    rewrite (@same_mem (gof m) (gof m') (ein e) (proj2 (proj1 A) _ Pi) : mem (ein e) (m_vertices m') = mem (ein e) (m_vertices m)).
    destruct (negb (mem (eout e) (m_vertices m)) || negb (mem (ein e) (m_vertices m))); (split; [reflexivity|]); cbn [snd]; auto.
    apply agree_edges; [exact A|]. intros f Pf. rewrite !mem_add. now rewrite (proj2 (proj1 A) _ Pf : mem f (m_edges m') = _).
  Qed.
  Lemma create_edge_within (P : part -> Prop) m e : ~ P (AnEdge e) -> within P m (mem_create_edge m e).
  Proof.
    intros Pe. unfold mem_create_edge. destruct (negb _ || negb _); [apply agree_refl|].
    apply (@agree_edges P m m (m_edges m) (m_reversed m)); [apply agree_refl|]. intros f Pf. rewrite mem_add. destruct (eqb f e) eqn:E; [apply eqb_eq in E as ->; contradiction|reflexivity].
  Qed.

  Lemma bulk_lock (P : part -> Prop) items :
    (forall it, In it items -> P (puts it) /\ forall e, it = BEdge e -> P (AVertex (eout e)) /\ P (AVertex (ein e))) -> forall m m', agree P m m' ->
    lock P (mem_bulk_insert dbg m items) (mem_bulk_insert dbg m' items).
  Proof.
    unfold mem_bulk_insert. induction items as [|it items IH]; intros Pi m m' A; cbn [default_bulk_insert]; [split; auto|].
    destruct (Pi it (or_introl eq_refl)) as [P0 Pe]. assert (forall m m', agree P m m' ->
      lock P (default_bulk_insert mem_create_vertex mem_create_edge (mem_set_vertex_properties dbg) (mem_set_edge_properties dbg) m items)
             (default_bulk_insert mem_create_vertex mem_create_edge (mem_set_vertex_properties dbg) (mem_set_edge_properties dbg) m' items)) as IH'
      by (apply IH; intros x Hx; apply Pi; now right).
    destruct it as [v|e|id n v|e n v]; (apply lock_bind; [|intros _ m1 m2 A1; now apply IH']); cbn [puts] in P0.
    - now apply create_vertex_lock.
    - destruct (Pe e eq_refl). now apply create_edge_lock.
    - apply set_vprops_lock; [|exact A]. intros i [<-|[]]. exact P0.
    - apply set_eprops_lock; [|exact A]. intros i [<-|[]]. exact P0.
  Qed.
  Lemma bulk_within (P : part -> Prop) items : (forall it, In it items -> ~ P (puts it)) -> forall m, within P m (mem_bulk_insert dbg m items).
  Proof.
    unfold mem_bulk_insert. induction items as [|it items IH]; intros Pi m; cbn [default_bulk_insert]; [apply agree_refl|].
    pose proof (Pi it (or_introl eq_refl)) as P0.
    assert (forall m, within P m (default_bulk_insert mem_create_vertex mem_create_edge (mem_set_vertex_properties dbg) (mem_set_edge_properties dbg) m items)) as IH'
      by (apply IH; intros x Hx; apply Pi; now right).
    destruct it as [v|e|id n v|e n v]; (apply within_bind; [|intros _ m1; now apply IH']); cbn [puts] in P0.
    - now apply create_vertex_within.
    - now apply create_edge_within.
    - apply set_vprops_within. intros i [<-|[]]. exact P0.
    - apply set_eprops_within. intros i [<-|[]]. exact P0.
  Qed.
End Build.

(** ** Queries *)

Section Names.
  Context {A : Type}.
  Variables (ops : txn_ops A) (s : A).

  Lemma props_of_vertices_In name vs : forall l, props_of_vertices ops s name vs = Ok l ->
    forall y, In y l -> In (vp_vertex y) vs /\ forall p, In p (vp_props y) -> named name (np_name p).
  Proof.
    induction vs as [|v vs IH]; intros l E y Hy; cbn [props_of_vertices] in E; [injection E as <-; destruct Hy|].
    match type of E with obind ?x _ = _ => destruct x as [props|e|] eqn:Ep end; cbn [obind] in E; try discriminate.
    destruct (props_of_vertices ops s name vs) as [rest|e|]; cbn [obind] in E; try discriminate. specialize (IH rest eq_refl).
    assert (forall p, In p props -> named name (np_name p)) as N.
    { destruct name as [n|]; [|now left]. destruct (t_vertex_property ops s v n) as [[x|]|e|]; cbn [obind] in Ep; try discriminate; injection Ep as <-; intros p Hp; [|destruct Hp].
      destruct Hp as [<-|[]]. right. reflexivity. }
    injection E as <-. destruct props as [|p0 props].
    - destruct (IH y Hy). split; [now right|assumption].
    - destruct Hy as [<-|Hy]; [split; [now left|exact N]|]. destruct (IH y Hy). split; [now right|assumption].
  Qed.
  Lemma props_of_edges_In name es : forall l, props_of_edges ops s name es = Ok l ->
    forall y, In y l -> In (ep_edge y) es /\ forall p, In p (ep_props y) -> named name (np_name p).
  Proof.
    induction es as [|v es IH]; intros l E y Hy; cbn [props_of_edges] in E; [injection E as <-; destruct Hy|].
    match type of E with obind ?x _ = _ => destruct x as [props|e|] eqn:Ep end; cbn [obind] in E; try discriminate.
    destruct (props_of_edges ops s name es) as [rest|e|]; cbn [obind] in E; try discriminate. specialize (IH rest eq_refl).
    assert (forall p, In p props -> named name (np_name p)) as N.
    { destruct name as [n|]; [|now left]. destruct (t_edge_property ops s v n) as [[x|]|e|]; cbn [obind] in Ep; try discriminate; injection Ep as <-; intros p Hp; [|destruct Hp].
      destruct Hp as [<-|[]]. right. reflexivity. }
    injection E as <-. destruct props as [|p0 props].
    - destruct (IH y Hy). split; [now right|assumption].
    - destruct Hy as [<-|Hy]; [split; [now left|exact N]|]. destruct (IH y Hy). split; [now right|assumption].
  Qed.
End Names.

Section Yield.
  Variable dbg : bool.
  Variable ord : order.
  Variable m : memory.
  Hypothesis M : mirror m.
  Notation ops := (mem_ops dbg ord).
  Let RO := mem_reads_ok dbg ord M.

  Lemma specific_In ids l : collect (filter_map (fun id => option_map (fun t => Ok (Vertex id t)) (get id (m_vertices m))) ids) = Ok l ->
    forall v, In v l -> In (vid v) ids.
  Proof.
    revert l. induction ids as [|id ids IH]; intros l E v Hv; cbn [filter_map] in E; [injection E as <-; destruct Hv|].
    destruct (get id (m_vertices m)) as [t|]; cbn [option_map] in E; [|right; eapply IH; eauto].
    cbn [collect] in E. cbn [obind] in E. destruct (collect _) as [l'|e|] eqn:El; cbn [obind] in E; try discriminate. injection E as <-.
    destruct Hv as [<-|Hv]; [now left|right; eapply IH; eauto].
  Qed.

  Lemma leaf_yields q v : inner_of q = None -> leaf_value ops m q = Ok v -> forall x, consists v x -> yields q x.
  Proof.
    intros I E x C. unfold leaf_value in E.
    assert (forall (ids : list uuid) w, (let? out := (let? it := t_specific_vertices ops m ids in let? l := collect it in Ok [Vertices l]) in let? (v, _) := pop out in Ok v) = Ok w ->
      exists l, w = Vertices l /\ forall v, In v l -> In (vid v) ids) as Sp.
    { intros ids w. cbn [t_specific_vertices mem_ops mem_specific_vertices obind]. destruct (collect _) as [l|e|] eqn:El; cbn; intros X; inversion X; subst.
      exists l. split; [reflexivity|]. now apply specific_In. }
    destruct q; cbn [inner_of] in I; try discriminate; cbn [query_exec yields] in *.
    - destruct (t_all_vertices ops m) as [it|e|]; cbn [obind] in E; try discriminate. destruct (collect it) as [l|e|]; cbn in E; inversion E; subst. destruct C as (y & _ & ->). eauto.
    - match type of E with context [obind ?x] => lazymatch x with match _ with _ => _ end => destruct x as [it|e|]; cbn [obind] in E; try discriminate end end.
      destruct (collect _) as [l|e|]; cbn in E; inversion E; subst. destruct C as (y & _ & ->). eauto.
    - destruct (Sp _ _ E) as (l & -> & Hl). destruct C as (y & Hy & ->). eauto.
    - destruct (indexed_or_err _) as [ids|e|]; cbn [obind] in E; try discriminate. destruct (Sp _ _ E) as (l & -> & Hl). destruct C as (y & Hy & ->). eauto.
    - destruct (indexed_or_err _) as [ids|e|]; cbn [obind] in E; try discriminate. destruct (Sp _ _ E) as (l & -> & Hl). destruct C as (y & Hy & ->). eauto.
    - destruct (t_all_edges ops m) as [it|e|]; cbn [obind] in E; try discriminate. destruct (collect it) as [l|e|]; cbn in E; inversion E; subst. destruct C as (y & _ & ->). eauto.
    - cbn [t_specific_edges mem_ops mem_specific_edges obind] in E. rewrite collect_Ok in E. cbn in E. inversion E; subst. destruct C as (y & Hy & ->).
      apply filter_In in Hy as [Hy _]. eauto.
    - destruct (indexed_or_err _) as [ids|e|]; cbn in E; inversion E; subst. destruct C as (y & Hy & ->). eauto.
    - destruct (indexed_or_err _) as [ids|e|]; cbn in E; inversion E; subst. destruct C as (y & Hy & ->). eauto.
  Qed.

  Lemma stage_yields q i p v : inner_of q = Some i -> stage_value ops m q p = Ok v -> (forall x, consists p x -> yields i x) ->
    forall x, consists v x -> yields q x.
  Proof.
    intros I E Y x C.
    destruct q; cbn [inner_of] in I; try discriminate; injection I as ->; cbn [stage_value yields] in *.
    - destruct p as [vs|es|n|l|l]; try discriminate.
      + destruct (@pipe_vertices_ok _ ops m (gof m) lt vm (ix_exact m) is_max lex_order RO dir limit t vs []) as (ls & F & Ep); [unfold lenN; cbn; lia|].
        rewrite Ep in E. cbn [omapo app] in E. inversion E; subst. destruct C as (e & He & ->). right. exists e. split; [|reflexivity].
        apply limited_In, in_concat in He as (l & Hl & He). apply Y. cbn [consists]. clear Y E Ep.
        induction F as [|w l' vs ls Hw F IH]; [destruct Hl|]. destruct Hl as [->|Hl].
        * exists w. split; [now left|]. destruct (proj1 (proj2 Hw e) He) as (_ & Ee & _). unfold endpoint in Ee. now rewrite Ee.
        * destruct (IH Hl) as (w' & Hw' & Ew). exists w'. split; [now right|exact Ew].
      + destruct (@pipe_edges_ok _ ops m (gof m) lt vm (ix_exact m) is_max RO dir limit t es) as (l & K & Ep).
        rewrite Ep in E. cbn [omapo] in E. inversion E; subst. destruct C as (w & Hw & ->). left.
        apply limited_In in Hw. apply (keeps_In _ K) in Hw. apply in_flat_map in Hw as (id & Hid & Hw). apply found_In in Hw as [-> _].
        apply in_map_iff in Hid as (e & <- & He). exists e. split; [apply Y; cbn; eauto|reflexivity].
    - destruct p as [vs|es|n|l|l]; try discriminate.
      + destruct (props_of_vertices ops m name vs) as [l|e|] eqn:Ep; cbn [omapo] in E; inversion E; subst. destruct C as (y & p & Hy & Hp & ->).
        destruct (@props_of_vertices_In _ _ _ _ _ _ Ep y Hy) as [Hv Hn]. left. exists (vid (vp_vertex y)), (np_name p). split; [apply Y; cbn; eauto|]. auto.
      + destruct (props_of_edges ops m name es) as [l|e|] eqn:Ep; cbn [omapo] in E; inversion E; subst. destruct C as (y & p & Hy & Hp & ->).
        destruct (@props_of_edges_In _ _ _ _ _ _ Ep y Hy) as [Hv Hn]. right. exists (ep_edge y), (np_name p). split; [apply Y; cbn; eauto|]. auto.
    - destruct p as [vs|es|n|l|l]; try discriminate; destruct (indexed_or_err _) as [l|e|]; cbn [obind] in E; inversion E; subst;
        destruct C as (y & Hy & ->); apply filter_In in Hy as [Hy _]; apply Y; cbn; eauto.
    - destruct p as [vs|es|n|l|l]; try discriminate; destruct (indexed_or_err _) as [l|e|]; cbn [obind] in E; inversion E; subst;
        destruct C as (y & Hy & ->); apply filter_In in Hy as [Hy _]; apply Y; cbn; eauto.
    - inversion E; subst. now apply Y.
    - destruct (out_size p); inversion E; subst. exact C.
  Qed.

  Lemma answer_yields q : forall v, answer ops m q = Ok v -> forall x, consists v x -> yields q x.
  Proof.
    induction q as [q E|q i E IH] using query_stage_ind; intros v A.
    - apply leaf_yields; [exact E|]. now rewrite <- (@value_answer _ ops m (gof m) lt vm (ix_exact m) is_max lex_order RO q) in A.
    - rewrite (@answer_stage _ ops m (gof m) lt vm (ix_exact m) is_max lex_order RO q i E) in A. destruct (answer ops m i) as [p|e|] eqn:Ai; cbn [obind] in A; try discriminate.
      eapply stage_yields; eauto.
  Qed.
End Yield.

Section Same.
  Variable dbg : bool.
  Variable ord : order.
  Variables m m' : memory.
  Hypothesis M : mirror m.
  Hypothesis M' : mirror m'.
  Hypothesis K : cok m.
  Hypothesis K' : cok m'.
  Notation ops := (mem_ops dbg ord).

  Lemma stage_edges_same d t v it it' : (forall e, endpoint d e = vid v -> same_part (gof m) (gof m') (AnEdge e)) ->
    match d with Outbound => t_range_edges ops m (Edge (vid v) (match t with Some t' => t' | None => empty_ident end) nil_uuid)
               | Inbound => t_range_reversed_edges ops m (Edge (vid v) (match t with Some t' => t' | None => empty_ident end) nil_uuid) end = Ok it ->
    match d with Outbound => t_range_edges ops m' (Edge (vid v) (match t with Some t' => t' | None => empty_ident end) nil_uuid)
               | Inbound => t_range_reversed_edges ops m' (Edge (vid v) (match t with Some t' => t' | None => empty_ident end) nil_uuid) end = Ok it' ->
    step_edges d t v it' = step_edges d t v it.
  Proof.
    intros Sm E E'. destruct (@pipe_one _ ops m _ _ _ _ _ lex_order (mem_reads_ok dbg ord M) d t v) as (l & L & it1 & E1 & S1).
    destruct (@pipe_one _ ops m' _ _ _ _ _ lex_order (mem_reads_ok dbg ord M') d t v) as (l' & L' & it2 & E2 & S2).
    rewrite E in E1. rewrite E' in E2. injection E1 as <-. injection E2 as <-. rewrite S1, S2. f_equal.
    refine (edges_at_unique lex_order L' _). eapply listing_ext; [|exact L]. intros e. cbv beta.
    assert (endpoint d e = vid v -> is_edge (gof m) e <-> is_edge (gof m') e) as X; [|tauto]. intros Ep. now apply is_edge_same, Sm.
  Qed.

  Lemma pipe_vertices_same d limit t vs : (forall v e, In v vs -> endpoint d e = vid v -> same_part (gof m) (gof m') (AnEdge e)) ->
    forall acc, pipe_vertices ops m' d limit t vs acc = pipe_vertices ops m d limit t vs acc.
  Proof.
    induction vs as [|v vs IH]; intros Sm acc; [reflexivity|]. rewrite !pipe_vertices_step.
    destruct (@pipe_one _ ops m _ _ _ _ _ lex_order (mem_reads_ok dbg ord M) d t v) as (_ & _ & it & E & _).
    destruct (@pipe_one _ ops m' _ _ _ _ _ lex_order (mem_reads_ok dbg ord M') d t v) as (_ & _ & it' & E' & _).
    pose proof (@stage_edges_same d t v it it' (fun e => Sm v e (or_introl eq_refl)) E E') as X. rewrite E, E'. cbn [obind]. rewrite X.
    destruct (checked_sub limit (lenN acc)) as [n|e|]; cbn [obind]; auto. destruct (collect _) as [new|e|]; cbn [obind]; auto.
    destruct (limit <=? lenN (acc ++ new))%N; [reflexivity|]. apply IH. intros w e Hw. apply Sm. now right.
  Qed.

  Lemma specific_vertices_same ids : (forall id, In id ids -> same_part (gof m) (gof m') (AVertex id)) -> t_specific_vertices ops m' ids = t_specific_vertices ops m ids.
  Proof.
    intros Sm. cbn [t_specific_vertices mem_ops]. unfold mem_specific_vertices. f_equal.
    induction ids as [|id ids IH]; cbn [filter_map]; [reflexivity|].
    rewrite (Sm id (or_introl eq_refl) : get id (m_vertices m') = get id (m_vertices m)), IH; [reflexivity|]. intros i Hi. apply Sm. now right.
  Qed.

  Lemma vprops_same v : (forall n, same_part (gof m) (gof m') (AVProp (vid v) n)) -> t_all_vertex_properties ops m' v = t_all_vertex_properties ops m v.
  Proof.
    intros Sm. pose proof (mem_reads_ok dbg ord M) as RO. pose proof (mem_reads_ok dbg ord M') as RO'.
    destruct (ro_bad_dec RO (vid v)) as [B|B].
    - rewrite (ro_bad_vprops RO v B), (ro_bad_vprops RO' v B). reflexivity.
    - destruct (ro_all_vprops RO v B) as (l & Y & L), (ro_all_vprops RO' v B) as (l' & Y' & L'). unfold QueryFacts.yields in Y, Y'. rewrite Y, Y'. f_equal. f_equal.
      assert (listing (fun a b : ident * json => lt (fst a) (fst b)) (fun a => vprop_fn (gof m') v (fst a) = Some (snd a)) l) as L1.
      { eapply listing_ext; [|exact L]. intros [n x]. cbn [fst snd]. now rewrite (@vprop_same _ _ v n (Sm n)). }
      eapply listing_unique; [| |exact L'|exact L1].
      + intros [n x]. apply lt_irrefl.
      + intros [n x] [k y]. apply lt_asym.
  Qed.
  Lemma eprops_same e : (forall n, same_part (gof m) (gof m') (AnEProp e n)) -> t_all_edge_properties ops m' e = t_all_edge_properties ops m e.
  Proof.
    intros Sm. pose proof (mem_reads_ok dbg ord M) as RO. pose proof (mem_reads_ok dbg ord M') as RO'.
    destruct (ro_all_eprops RO e) as (l & Y & L), (ro_all_eprops RO' e) as (l' & Y' & L'). unfold QueryFacts.yields in Y, Y'. rewrite Y, Y'. f_equal. f_equal.
    assert (listing (fun a b : ident * json => lt (fst a) (fst b)) (fun a => eprop_fn (gof m') e (fst a) = Some (snd a)) l) as L1.
    { eapply listing_ext; [|exact L]. intros [n x]. cbn [fst snd]. now rewrite (@eprop_same _ _ e n (Sm n)). }
    eapply listing_unique; [| |exact L'|exact L1].
    - intros [n x]. apply lt_irrefl.
    - intros [n x] [k y]. apply lt_asym.
  Qed.

  Lemma props_of_vertices_same name vs : (forall v n, In v vs -> named name n -> same_part (gof m) (gof m') (AVProp (vid v) n)) ->
    props_of_vertices ops m' name vs = props_of_vertices ops m name vs.
  Proof.
    induction vs as [|v vs IH]; intros Sm; cbn [props_of_vertices]; [reflexivity|].
    rewrite IH by (intros w n Hw; apply Sm; now right).
    assert (forall n, named name n -> same_part (gof m) (gof m') (AVProp (vid v) n)) as Sv by (intros n; apply Sm; now left).
    destruct name as [n|].
    - cbn [t_vertex_property mem_ops mem_vertex_property]. unfold mem_vertex_property. rewrite (Sv n (or_intror eq_refl) : get (vid v, n) (m_vprops m') = get (vid v, n) (m_vprops m)). reflexivity.
    - rewrite vprops_same; [reflexivity|]. intros n. apply Sv. now left.
  Qed.
  Lemma props_of_edges_same name es : (forall e n, In e es -> named name n -> same_part (gof m) (gof m') (AnEProp e n)) ->
    props_of_edges ops m' name es = props_of_edges ops m name es.
  Proof.
    induction es as [|v es IH]; intros Sm; cbn [props_of_edges]; [reflexivity|].
    rewrite IH by (intros w n Hw; apply Sm; now right).
    assert (forall n, named name n -> same_part (gof m) (gof m') (AnEProp v n)) as Sv by (intros n; apply Sm; now left).
    destruct name as [n|].
    - cbn [t_edge_property mem_ops mem_edge_property]. unfold mem_edge_property. rewrite (Sv n (or_intror eq_refl) : get (v, n) (m_eprops m') = get (v, n) (m_eprops m)). reflexivity.
    - rewrite eprops_same; [reflexivity|]. intros n. apply Sv. now left.
  Qed.

  (** *** Index lookups *)

  Lemma index_cases n : agree (fun _ => False) m m' ->
    (exists c c', get n (m_index m) = Some c /\ get n (m_index m') = Some c' /\ c_ok c /\ c_ok c') \/
    (get n (m_index m) = None /\ get n (m_index m') = None).
  Proof.
    intros A. pose proof (named_same n A) as E. destruct (get n (m_index m)) as [c|] eqn:G.
    - assert (mem n (m_index m) = true) as X by (apply mem_get; eauto). rewrite X in E. apply mem_get in E as (c' & G'). left. exists c, c'. eauto 8.
    - assert (mem n (m_index m) = false) as X by now apply mem_false. rewrite X in E. apply mem_false in E. auto.
  Qed.

  Lemma to_set_ext {A} {O : Ord A} (l l' : list A) : (forall x, In x l' <-> In x l) -> to_set l' = to_set l.
  Proof.
    intros E. apply (@sorted_ext _ lt); [intros x; apply lt_irrefl|intros x y; apply lt_asym|apply keys_sorted|apply keys_sorted|].
    intros x. rewrite !to_set_In. apply E.
  Qed.

  Lemma any_member {A} (f : member -> option A) (mk : A -> member) (c : container) a : (forall b, f b = Some a <-> b = mk a) -> c_ok c ->
    In a (flat_map (fun kv => filter_map f (keys (snd kv))) c) <-> exists v, c_has c v (mk a) = true.
  Proof.
    intros F Ok_. rewrite <- (c_any (mk a) Ok_), in_flat_map. split.
    - intros (kv & Hkv & Ha). exists kv. split; [exact Hkv|]. apply in_filter_map in Ha as (b & Hb & Fb). apply F in Fb as ->. now apply keys_In.
    - intros (kv & Hkv & Ha). exists kv. split; [exact Hkv|]. apply in_filter_map. exists (mk a). split; [now apply keys_In|]. now apply F.
  Qed.
  Lemma is_mvertex id b : member_vertex b = Some id <-> b = MVertex id.
  Proof. destruct b; cbn; split; congruence. Qed.
  Lemma is_medge e b : member_edge b = Some e <-> b = MEdge e.
  Proof. destruct b; cbn; split; congruence. Qed.

  Lemma filter_map_sorted {A} {O : Ord A} (f : member -> option A) (mk : A -> member) l : (forall a b, f b = Some a <-> b = mk a) ->
    (forall a b, lt (mk a) (mk b) -> lt a b) -> StronglySorted lt l -> StronglySorted lt (filter_map f l).
  Proof.
    intros F Mk. induction 1 as [|b l S IH Fa]; cbn [filter_map]; [constructor|]. destruct (f b) as [a|] eqn:E; [|exact IH].
    constructor; [exact IH|]. apply Forall_forall. intros x Hx. apply in_filter_map in Hx as (b' & Hb & Fb). apply F in E, Fb. subst. apply Mk.
    rewrite Forall_forall in Fa. now apply Fa.
  Qed.

  (** The members listed under a value, in canonical order. *)
  Definition under {A} (f : member -> option A) (c : container) (x : json) : list A :=
    match c_get x c with Some ms => filter_map f (keys ms) | None => [] end.
  Lemma under_same {A} {O : Ord A} (f : member -> option A) (mk : A -> member) c c' x : (forall a b, f b = Some a <-> b = mk a) ->
    (forall a b, lt (mk a) (mk b) -> lt a b) -> (forall a, c_has c' x (mk a) = c_has c x (mk a)) -> under f c' x = under f c x.
  Proof.
    intros F Mk E. apply (@sorted_ext _ lt); [intros a; apply lt_irrefl|intros a b; apply lt_asym| | |].
    - unfold under. destruct (c_get x c'); [|constructor]. eapply filter_map_sorted; eauto. apply keys_sorted.
    - unfold under. destruct (c_get x c); [|constructor]. eapply filter_map_sorted; eauto. apply keys_sorted.
    - assert (forall c a, In a (under f c x) <-> c_has c x (mk a) = true) as U.
      { intros c0 a. unfold under, c_has. destruct (c_get x c0) as [ms|]; [|split; [intros []|discriminate]]. rewrite in_filter_map. split.
        - intros (b & Hb & Fb). apply F in Fb as ->. now apply keys_In.
        - intros Hm. exists (mk a). split; [now apply keys_In|]. now apply F. }
      intros a. rewrite !U, E. tauto.
  Qed.

  Lemma has_same n mb x c c' : agree (fun x => exists mb, x = slot mb n) m m' -> get n (m_index m) = Some c -> get n (m_index m') = Some c' -> c_has c' x mb = c_has c x mb.
  Proof. intros A G G'. pose proof (proj2 A mb n (ex_intro _ mb eq_refl) x) as E. unfold ixhas in E. now rewrite G, G' in E. Qed.

  Lemma slots_False n : agree (fun x => exists mb, x = slot mb n) m m' -> agree (fun _ => False) m m'.
  Proof. intros A. eapply agree_sub; [exact A|]. intros x []. Qed.

  Lemma vindex_same n : agree (fun x => exists mb, x = slot mb n) m m' -> t_vertex_ids_with_property ops m' n = t_vertex_ids_with_property ops m n.
  Proof.
    intros A. cbn [t_vertex_ids_with_property mem_ops]. unfold mem_vertex_ids_with_property.
    destruct (index_cases n (@slots_False n A)) as [(c & c' & G & G' & Ko & Ko')|[-> ->]]; [|reflexivity].
    rewrite G, G'. cbn [option_map]. do 4 f_equal. apply to_set_ext. intros id.
    rewrite !(@any_member _ member_vertex MVertex _ _ (is_mvertex id)) by assumption.
    split; intros (x & Hx); exists x; [rewrite <- (@has_same n _ _ c c' A G G')|rewrite (@has_same n _ _ c c' A G G')]; exact Hx.
  Qed.
  Lemma eindex_same n : agree (fun x => exists mb, x = slot mb n) m m' -> t_edges_with_property ops m' n = t_edges_with_property ops m n.
  Proof.
    intros A. cbn [t_edges_with_property mem_ops]. unfold mem_edges_with_property.
    destruct (index_cases n (@slots_False n A)) as [(c & c' & G & G' & Ko & Ko')|[-> ->]]; [|reflexivity].
    rewrite G, G'. cbn [option_map]. do 4 f_equal. apply to_set_ext. intros id.
    rewrite !(@any_member _ member_edge MEdge _ _ (is_medge id)) by assumption.
    split; intros (x & Hx); exists x; [rewrite <- (@has_same n _ _ c c' A G G')|rewrite (@has_same n _ _ c c' A G G')]; exact Hx.
  Qed.
  Lemma lt_mvertex a b : lt (MVertex a) (MVertex b) -> lt a b.
  Proof. auto. Qed.
  Lemma lt_medge a b : lt (MEdge a) (MEdge b) -> lt a b.
  Proof. auto. Qed.
  Lemma ord_nil_v : ord_v ord [] = [].
  Proof. pose proof (ord_v_perm ord []) as P. now apply Permutation_nil in P. Qed.
  Lemma ord_nil_e : ord_e ord [] = [].
  Proof. pose proof (ord_e_perm ord []) as P. now apply Permutation_nil in P. Qed.

  Lemma vvalue_same n x : agree (fun x => exists mb, x = slot mb n) m m' -> t_vertex_ids_with_property_value ops m' n x = t_vertex_ids_with_property_value ops m n x.
  Proof.
    intros A. cbn [t_vertex_ids_with_property_value mem_ops]. unfold mem_vertex_ids_with_property_value.
    destruct (index_cases n (@slots_False n A)) as [(c & c' & G & G' & Ko & Ko')|[-> ->]]; [|reflexivity].
    rewrite G, G'. cbn [option_map]. do 2 f_equal.
    assert (forall c, match c_get x c with Some ms => map Ok (ord_v ord (filter_map member_vertex (keys ms))) | None => [] end = map (@Ok uuid) (ord_v ord (under member_vertex c x))) as U.
    { intros c0. unfold under. destruct (c_get x c0); [reflexivity|]. now rewrite ord_nil_v. }
    rewrite !U. do 2 f_equal. apply (@under_same _ _ member_vertex MVertex).
    - intros a b. apply is_mvertex.
    - apply lt_mvertex.
    - intros a. exact (@has_same n _ _ c c' A G G').
  Qed.
  Lemma evalue_same n x : (forall e, same_part (gof m) (gof m') (AnEdge e)) -> agree (fun x => exists mb, x = slot mb n) m m' ->
    t_edges_with_property_value ops m' n x = t_edges_with_property_value ops m n x.
  Proof.
    intros Sm A. cbn [t_edges_with_property_value mem_ops]. unfold mem_edges_with_property_value.
    destruct (index_cases n (@slots_False n A)) as [(c & c' & G & G' & Ko & Ko')|[-> ->]]; [|reflexivity].
    rewrite G, G'. cbn [option_map]. do 2 f_equal.
    assert (forall (t : oset edge) c, match c_get x c with Some ms => map Ok (ord_e ord (filter (fun e => mem e t) (filter_map member_edge (keys ms)))) | None => [] end =
      map (@Ok edge) (ord_e ord (filter (fun e => mem e t) (under member_edge c x)))) as U.
    { intros t c0. unfold under. destruct (c_get x c0); [reflexivity|]. cbn [filter]. now rewrite ord_nil_e. }
    rewrite !U. do 2 f_equal. rewrite (@under_same _ _ member_edge MEdge c c' x).
    - apply filter_ext. intros e. exact (Sm e).
    - intros a b. apply is_medge.
    - apply lt_medge.
    - intros a. exact (@has_same n _ _ c c' A G G').
  Qed.

  Lemma evalue_contains n x : agree (fun x => exists mb, x = slot mb n) m m' ->
    (exists l l', indexed_or_err (t_edges_with_property_value ops m n x) = Ok l /\ indexed_or_err (t_edges_with_property_value ops m' n x) = Ok l' /\
       forall e, same_part (gof m) (gof m') (AnEdge e) -> contains e l' = contains e l) \/
    (indexed_or_err (t_edges_with_property_value ops m n x) = Err NotIndexed /\ indexed_or_err (t_edges_with_property_value ops m' n x) = Err NotIndexed).
  Proof.
    intros A. cbn [t_edges_with_property_value mem_ops]. unfold mem_edges_with_property_value.
    destruct (index_cases n (@slots_False n A)) as [(c & c' & G & G' & Ko & Ko')|[-> ->]]; [|right; auto]. left.
    rewrite G, G'. cbn [option_map].
    assert (forall (t : oset edge) c, match c_get x c with Some ms => map Ok (ord_e ord (filter (fun e => mem e t) (filter_map member_edge (keys ms)))) | None => [] end =
      map (@Ok edge) (ord_e ord (filter (fun e => mem e t) (under member_edge c x)))) as U.
    { intros t c0. unfold under. destruct (c_get x c0); [reflexivity|]. cbn [filter]. now rewrite ord_nil_e. }
    rewrite !U. unfold indexed_or_err. cbn [obind]. rewrite !collect_Ok. do 2 eexists. split; [reflexivity|]. split; [reflexivity|].
    rewrite (@under_same _ _ member_edge MEdge c c' x).
    - intros e Se. assert (forall (t : oset edge) (b : bool), mem e t = b -> contains e (ord_e ord (filter (fun e => mem e t) (under member_edge c x))) = b && contains e (under member_edge c x)) as Cn.
      { intros t b Eb. unfold contains. apply Bool.eq_iff_eq_true. rewrite andb_true_iff, !existsb_exists. split.
        - intros (f & Hf & Ef). apply eqb_eq in Ef as <-. eapply Permutation_in in Hf; [|apply Permutation_sym, ord_e_perm]. apply filter_In in Hf as [Hf Mf].
          split; [congruence|]. exists e. split; [exact Hf|apply eqb_refl].
        - intros [-> (f & Hf & Ef)]. apply eqb_eq in Ef as <-. exists e. split; [|apply eqb_refl]. eapply Permutation_in; [apply ord_e_perm|]. apply filter_In. auto. }
      rewrite (Cn _ _ (Se : mem e (m_edges m') = mem e (m_edges m))), (Cn _ _ eq_refl). reflexivity.
    - intros a b. apply is_medge.
    - apply lt_medge.
    - intros a. exact (@has_same n _ _ c c' A G G').
  Qed.

  (** *** Whole queries *)

  Lemma yields_looks q : forall x, yields q x -> looks_at q x.
  Proof.
    induction q; cbn [yields looks_at]; intros x Y; auto; try contradiction; unfold edges_indexed_under, indexed_under; auto.
  Qed.

  Lemma under_slots (P : part -> Prop) n : agree P m m' -> (forall x, indexed_under n x -> P x) -> agree (fun x => exists mb, x = slot mb n) m m'.
  Proof.
    intros A S. eapply agree_sub; [exact A|]. intros x ([id|e] & ->); apply S; cbn [slot]; right; [left|right]; eauto.
  Qed.

  Lemma all_vertices_same : (forall id, same_part (gof m) (gof m') (AVertex id)) -> m_vertices m' = m_vertices m.
  Proof. intros Sm. apply omap_ext. exact Sm. Qed.
  Lemma all_edges_same : (forall e, same_part (gof m) (gof m') (AnEdge e)) -> m_edges m' = m_edges m.
  Proof. intros Sm. apply oset_ext. exact Sm. Qed.

  Lemma leaf_same q : inner_of q = None -> agree (looks_at q) m m' -> leaf_value ops m' q = leaf_value ops m q.
  Proof.
    intros I A. pose proof (proj2 (proj1 A)) as Sm. unfold leaf_value.
    destruct q; cbn [inner_of] in I; try discriminate; cbn [query_exec looks_at yields] in *.
    - cbn [t_all_vertices mem_ops]. unfold mem_all_vertices. rewrite all_vertices_same; [reflexivity|]. intros id. apply Sm. eauto.
    - cbn [t_all_vertices t_range_vertices mem_ops]. unfold mem_all_vertices, mem_range_vertices. rewrite all_vertices_same; [reflexivity|]. intros id. apply Sm. eauto.
    - rewrite specific_vertices_same; [reflexivity|]. intros id Hid. apply Sm. eauto.
    - rewrite vindex_same by (eapply under_slots; [exact A|auto]). destruct (indexed_or_err _) as [ids|e|]; cbn [obind]; auto.
      rewrite specific_vertices_same; [reflexivity|]. intros id Hid. apply Sm. left. eauto.
    - rewrite vvalue_same by (eapply under_slots; [exact A|auto]). destruct (indexed_or_err _) as [ids|e|]; cbn [obind]; auto.
      rewrite specific_vertices_same; [reflexivity|]. intros id Hid. apply Sm. left. eauto.
    - cbn [t_all_edges mem_ops]. unfold mem_all_edges. rewrite all_edges_same; [reflexivity|]. intros id. apply Sm. eauto.
    - cbn [t_specific_edges mem_ops]. unfold mem_specific_edges.
      assert (filter (fun e => mem e (m_edges m')) edges = filter (fun e => mem e (m_edges m)) edges) as ->; [|reflexivity].
      apply filter_ext_in. intros e He. apply (Sm (AnEdge e)). eauto.
    - rewrite eindex_same by (eapply under_slots; [exact A|]; intros x Hx; left; exact Hx). reflexivity.
    - rewrite evalue_same; [reflexivity| |eapply under_slots; [exact A|]; intros x Hx; left; exact Hx]. intros e. apply (Sm (AnEdge e)). right. eauto.
  Qed.

  Lemma stage_same q i p : inner_of q = Some i -> agree (looks_at q) m m' -> (forall x, consists p x -> yields i x) -> stage_value ops m' q p = stage_value ops m q p.
  Proof.
    intros I A Y. pose proof (proj2 (proj1 A)) as Sm.
    destruct q; cbn [inner_of] in I; try discriminate; injection I as ->; cbn [stage_value looks_at yields] in *; auto.
    - destruct p as [vs|es|n|l|l]; auto.
      + rewrite pipe_vertices_same; [reflexivity|]. intros v e Hv Ep. apply Sm. right. right. exists e. split; [|reflexivity]. apply Y. exists v. split; [exact Hv|].
        unfold endpoint in Ep. now rewrite Ep.
      + unfold pipe_edges. rewrite specific_vertices_same; [reflexivity|]. intros id Hid. apply in_map_iff in Hid as (e & <- & He). apply Sm. right. left. exists e.
        split; [apply Y; cbn; eauto|]. now destruct dir.
    - destruct p as [vs|es|n|l|l]; auto.
      + rewrite props_of_vertices_same; [reflexivity|]. intros v n Hv Hn. apply Sm. right. left. exists (vid v), n. split; [apply Y; cbn; eauto|]. auto.
      + rewrite props_of_edges_same; [reflexivity|]. intros v n Hv Hn. apply Sm. right. right. exists v, n. split; [apply Y; cbn; eauto|]. auto.
    - destruct p as [vs|es|n|l|l]; auto.
      + rewrite vindex_same by (eapply under_slots; [exact A|]; intros x Hx; right; exact Hx). reflexivity.
      + rewrite eindex_same by (eapply under_slots; [exact A|]; intros x Hx; right; exact Hx). reflexivity.
    - destruct p as [vs|es|n|l|l]; auto.
      + rewrite vvalue_same by (eapply under_slots; [exact A|]; intros x Hx; right; exact Hx). reflexivity.
      + destruct (@evalue_contains name value) as [(l & l' & -> & -> & C)|[-> ->]]; [eapply under_slots; [exact A|]; intros x Hx; right; exact Hx| |reflexivity].
        cbn [obind]. do 2 f_equal. apply filter_ext_in. intros e He. rewrite C; [reflexivity|]. apply Sm. left. apply yields_looks, Y. cbn. eauto.
  Qed.

  Lemma query_same q : agree (looks_at q) m m' -> db_get ops m' q = db_get ops m q /\ answer ops m' q = answer ops m q.
  Proof.
    assert (agree (looks_at q) m m' -> db_get ops m' q = db_get ops m q) as X; [|intros A; split; [auto|unfold answer; now rewrite X]].
    induction q as [q E|q i E IH] using query_stage_ind; intros A.
    - unfold db_get. rewrite !exec_leaf by exact E. now rewrite leaf_same.
    - assert (agree (looks_at i) m m') as Ai by (eapply agree_sub; [exact A|]; now apply looks_inner). specialize (IH Ai).
      rewrite (get_stage lex_order (mem_reads_ok dbg ord M) q E), (get_stage lex_order (mem_reads_ok dbg ord M') q E), IH.
      destruct (db_get ops m i) as [outs|e|] eqn:G; auto. destruct (rev outs) as [|p ex] eqn:R; auto.
      rewrite (@stage_same q i p E A); [reflexivity|]. apply (@answer_yields dbg ord m M i). unfold answer. now rewrite G, R.
  Qed.
End Same.

(** ** Calls *)

Section Calls.
  Variable dbg : bool.
  Variable ord : order.
  Notation ops := (mem_ops dbg ord).

  Lemma lock_resw {A} P (f : A -> res) x x' : lock P x x' -> lock P (resw f x) (resw f x').
  Proof. intros [E A0]. split; [|exact A0]. unfold resw. cbn [fst]. now rewrite E. Qed.

  Lemma request_acts m o x : mirror m -> acts (snd (request ops m (gof m) o)) x -> alters o x.
  Proof.
    intros M A. pose proof (@answer_yields dbg ord m M) as Y. destruct o; cbn [request snd acts alters] in *; auto; try contradiction.
    - destruct (mem id (gv (gof m))); cbn in A; [contradiction|exact A].
    - specialize (Y q). destruct (answer ops m q) as [[vs|es|n|l|l]|e|]; cbn [snd acts] in A; try contradiction; specialize (Y _ eq_refl).
      + destruct A as (id & Hi & G). apply in_map_iff in Hi as (v & <- & Hv). exists (AVertex (vid v)). split; [apply Y; cbn; eauto|exact G].
      + destruct A as (e & Hi & G). exists (AnEdge e). split; [apply Y; cbn; eauto|exact G].
      + destruct A as (p & Hi & ->). exists (AVProp (fst p) (snd p)). split; [apply Y; now apply vprop_keys_In|now cbn].
      + destruct A as (p & Hi & ->). exists (AnEProp (fst p) (snd p)). split; [apply Y; now apply eprop_keys_In|now cbn].
    - specialize (Y q). destruct (answer ops m q) as [[vs|es|n|l|l]|e|]; cbn [snd acts] in A; try contradiction; specialize (Y _ eq_refl).
      + destruct A as (id & Hi & ->). apply in_map_iff in Hi as (v & <- & Hv). exists (AVertex (vid v)). split; [apply Y; cbn; eauto|reflexivity].
      + destruct A as (e & Hi & ->). exists (AnEdge e). split; [apply Y; cbn; eauto|reflexivity].
    - destruct A as (id & Hi & G). apply in_map_iff in Hi as (v & <- & Hv). eauto.
  Qed.

  (** Outside of what it acts on, a call changes nothing. *)
  Lemma call_within m o : mirror m -> (forall n, o <> OIndexProperty n) ->
    agree (fun x => ~ acts (snd (request ops m (gof m) o)) x) m (snd (exec ops m o)).
  Proof.
    intros M NI. pose proof (mem_reads_ok dbg ord M) as RO.
    destruct o; cbn [exec request snd acts resw].
    - apply create_vertex_within. intros X. now apply X.
    - unfold db_create_vertex_from_type. cbn [t_create_vertex mem_ops]. unfold mem_create_vertex. cbn [vid vt gv gof]. unfold mem at 1.
      destruct (get id (m_vertices m)) as [t0|] eqn:G; cbn [sbind snd acts]; [apply agree_refl|].
      apply (@agree_vertices _ m m (m_vertices m)); [apply agree_refl|]. intros i Pi. apply get_set_other. intros ->. now apply Pi.
    - apply create_edge_within. intros X. now apply X.
    - apply agree_refl.
    - rewrite (delete_answer lex_order RO). destruct (answer ops m q) as [[vs|es|n|l|l]|e|]; cbn [snd acts]; try apply agree_refl.
      + apply delete_vertices_within. intros v x Hv G X. apply X. exists (vid v). split; [now apply in_map|exact G].
      + apply delete_edges_within. intros e He. split; [intros X; apply X; exists e; split; [exact He|now left]|intros n X; apply X; exists e; split; [exact He|right; eauto]].
      + apply delete_vprops_within. intros p Hp X. apply X. eauto.
      + apply delete_eprops_within. intros p Hp X. apply X. eauto.
    - rewrite (set_answer lex_order RO). destruct (answer ops m q) as [[vs|es|n|l|l]|e|]; cbn [snd acts]; try apply agree_refl.
      + apply set_vprops_within. intros id Hi X. apply X. eauto.
      + apply set_eprops_within. intros id Hi X. apply X. eauto.
    - apply bulk_within. intros it Hi X. apply X. eauto.
    - now elim (NI name).
    - apply agree_refl.
    - apply delete_vertices_within. intros v x Hv G X. apply X. exists (vid v). split; [now apply in_map|exact G].
    - apply delete_edges_within. intros e He. split; [intros X; apply X; exists e; split; [exact He|now left]|intros n X; apply X; exists e; split; [exact He|right; eauto]].
    - apply delete_vprops_within. intros p Hp X. apply X. eauto.
    - apply delete_eprops_within. intros p Hp X. apply X. eauto.
    - apply set_vprops_within. intros id Hi X. apply X. eauto.
    - apply set_eprops_within. intros id Hi X. apply X. eauto.
  Qed.

  (** On states that agree on what the call depends on, it returns the same and
      changes both in the same way. *)
  Lemma call_lock (P : part -> Prop) m m' o : mirror m -> mirror m' -> cok m -> cok m' -> (forall n, o <> OIndexProperty n) ->
    (forall x, depends o x -> P x) -> agree P m m' ->
    lock P (exec ops m o) (exec ops m' o) /\ snd (request ops m' (gof m') o) = snd (request ops m (gof m) o).
  Proof.
    intros M M' K K' NI D A. pose proof (mem_reads_ok dbg ord M) as RO. pose proof (mem_reads_ok dbg ord M') as RO'.
    assert (forall x, alters o x -> P x) as Al by (intros x Ax; apply D; now apply alters_depends).
    assert (forall q, (forall x, looks_at q x -> P x) -> db_get ops m' q = db_get ops m q /\ answer ops m' q = answer ops m q) as Q.
    { intros q Hq. apply query_same; auto. eapply agree_sub; [exact A|exact Hq]. }
    assert (forall id, P (AVertex id) -> mem id (m_vertices m') = mem id (m_vertices m)) as Mv.
    { intros id Pi. exact (@same_mem (gof m) (gof m') id (proj2 (proj1 A) _ Pi)). }
    pose proof (@answer_yields dbg ord m M) as Y.
    destruct o; cbn [exec request snd alters depends] in *; try (split; [apply lock_resw|reflexivity]).
    - apply create_vertex_lock; auto.
    - cbn [gv gof]. rewrite (Mv id) by now apply Al. split; [|now destruct (mem id (m_vertices m))]. apply lock_resw.
      unfold db_create_vertex_from_type. apply lock_bind; [apply create_vertex_lock; [now apply Al|exact A]|].
      intros b m1 m2 A1. destruct b; split; auto.
    - apply create_edge_lock; auto.
    - destruct (Q q D) as [E _]. split; [|reflexivity]. split; [cbn [fst]; now rewrite E|exact A].
    - destruct (Q q) as [_ E]; [intros x Hx; apply D; right; now left|]. specialize (Y q). split.
      + apply lock_resw. rewrite (delete_answer lex_order RO), (delete_answer lex_order RO'), E.
        destruct (answer ops m q) as [[vs|es|n|l|l]|e|]; cbn [fst snd]; try (split; auto; fail); specialize (Y _ eq_refl).
        * apply delete_vertices_lock; [|exact A]. intros v x Hv G. apply Al. exists (AVertex (vid v)). split; [apply Y; cbn; eauto|exact G].
        * apply delete_edges_lock; [|exact A]. intros e He. split; [|intros n]; apply Al; exists (AnEdge e); (split; [apply Y; cbn; eauto|]); [now left|right; eauto].
        * apply delete_vprops_lock; [|exact A]. intros p Hp. apply Al. exists (AVProp (fst p) (snd p)). split; [apply Y; now apply vprop_keys_In|now cbn].
        * apply delete_eprops_lock; [|exact A]. intros p Hp. apply Al. exists (AnEProp (fst p) (snd p)). split; [apply Y; now apply eprop_keys_In|now cbn].
      + now rewrite E.
    - destruct (Q q) as [_ E]; [intros x Hx; apply D; now right|]. specialize (Y q). split.
      + apply lock_resw. rewrite (set_answer lex_order RO), (set_answer lex_order RO'), E.
        destruct (answer ops m q) as [[vs|es|n|l|l]|e|]; cbn [fst snd]; try (split; auto; fail); specialize (Y _ eq_refl).
        * apply set_vprops_lock; [|exact A]. intros id Hi. apply in_map_iff in Hi as (v & <- & Hv). apply Al. exists (AVertex (vid v)). split; [apply Y; cbn; eauto|reflexivity].
        * apply set_eprops_lock; [|exact A]. intros e He. apply Al. exists (AnEdge e). split; [apply Y; cbn; eauto|reflexivity].
      + now rewrite E.
    - apply bulk_lock; [|exact A]. intros it Hi. split; [apply Al; eauto|]. intros e ->. split; apply D; right; eauto.
    - now elim (NI name).
    - split; auto.
    - apply delete_vertices_lock; [|exact A]. intros v x Hv G. apply Al. eauto.
    - apply delete_edges_lock; [|exact A]. intros e He. split; [|intros n]; apply Al; exists e; (split; [exact He|]); [now left|right; eauto].
    - apply delete_vprops_lock; [|exact A]. intros p Hp. apply Al. eauto.
    - apply delete_eprops_lock; [|exact A]. intros p Hp. apply Al. eauto.
    - apply set_vprops_lock; [|exact A]. intros id Hi. apply Al. eauto.
    - apply set_eprops_lock; [|exact A]. intros id Hi. apply Al. eauto.
  Qed.
End Calls.

(** [index_property] also respects states that agree everywhere. *)
Definition alike (m m' : memory) : Prop := agree (fun _ => True) m m'.

Lemma merge_has m n c' : cok m -> get n (m_index (snd (mem_index_property m n))) = Some c' ->
  forall v mb, c_has c' v mb = c_has (index_fresh m n) v mb || ixhas m n v mb.
Proof.
  intros K G v mb. cbn in G. rewrite get_set_same in G. injection G as <-.
  destruct (index_fresh_spec m n) as [F _]. rewrite (proj2 (merge_spec F _)). f_equal. unfold ixhas. now destruct (get n (m_index m)).
Qed.

Lemma index_alike m m' n : cok m -> cok m' -> alike m m' -> alike (snd (mem_index_property m n)) (snd (mem_index_property m' n)).
Proof.
  intros K K' A. destruct (index_property_spec m n) as (_ & G & _). destruct (index_property_spec m' n) as (_ & G' & _).
  assert (gof m' = gof m) as Eg by (apply same_everywhere; [exact (proj1 (proj1 A))|intros x; now apply (proj2 (proj1 A))]).
  split.
  - rewrite G, G', Eg. apply same_refl.
  - intros mb k _ v. unfold ixhas.
    assert (forall m0 k, eqb k n = false -> get k (m_index (snd (mem_index_property m0 n))) = get k (m_index m0)) as O.
    { intros m0 k0 E. cbn. rewrite get_set, E. reflexivity. }
    destruct (eqb k n) eqn:E.
    + apply eqb_eq in E as ->.
      assert (forall m0, exists c, get n (m_index (snd (mem_index_property m0 n))) = Some c) as X by (intros m0; cbn; rewrite get_set_same; eauto).
      destruct (X m) as (c & Gc), (X m') as (c' & Gc'). rewrite Gc, Gc', (merge_has n K Gc), (merge_has n K' Gc'), (proj2 A) by exact I. f_equal.
      apply Bool.eq_iff_eq_true. rewrite (proj2 (index_fresh_spec m n)), (proj2 (index_fresh_spec m' n)).
      inversion Eg as [[E1 E2 E3 E4 E5]]. unfold present, mprop. rewrite E1, E2, E3, E4. tauto.
    + rewrite !O by exact E. exact (proj2 A mb k I v).
Qed.

Lemma alike_step dbg ord m m' o : mirror m -> mirror m' -> cok m -> cok m' -> alike m m' ->
  fst (exec (mem_ops dbg ord) m' o) = fst (exec (mem_ops dbg ord) m o) /\ alike (snd (exec (mem_ops dbg ord) m o)) (snd (exec (mem_ops dbg ord) m' o)).
Proof.
  intros M M' K K' A.
  assert ((forall n, o <> OIndexProperty n) \/ exists n, o = OIndexProperty n) as [NI|(n & ->)].
  { destruct o; try (left; intros; discriminate). right. eauto. }
  - destruct (@call_lock dbg ord (fun _ => True) m m' o M M' K K' NI (fun _ _ => I) A) as [[E L] _]. auto.
  - cbn [exec t_index_property mem_ops resw]. split; [reflexivity|]. now apply index_alike.
Qed.

(** States that agree everywhere cannot be told apart. *)
Lemma alike_history dbg h h' m m' k : mem_run dbg h = Some m -> mem_run dbg h' = Some m' -> alike m m' -> forall x,
  fst (mem_step dbg (mem_run dbg (h' ++ k)) x) = fst (mem_step dbg (mem_run dbg (h ++ k)) x).
Proof.
  intros R R' A.
  assert (forall k, match mem_run dbg (h ++ k), mem_run dbg (h' ++ k) with Some a, Some b => alike a b | None, None => True | _, _ => False end) as X.
  { clear k. induction k as [|y k IH] using rev_ind; [rewrite !app_nil_r, R, R'; exact A|].
    rewrite !app_assoc, !mem_run_snoc. destruct (mem_run dbg (h ++ k)) as [a|] eqn:Ea, (mem_run dbg (h' ++ k)) as [b|] eqn:Eb; try contradiction; auto.
    destruct (run_weak dbg _ Ea) as (Ka & Ma & _), (run_weak dbg _ Eb) as (Kb & Mb & _). cbn [mem_step].
    destruct (@alike_step dbg (fst y) a b (snd y) Ma Mb Ka Kb IH) as [E L].
    destruct (exec (mem_ops dbg (fst y)) a (snd y)) as [r a'], (exec (mem_ops dbg (fst y)) b (snd y)) as [r' b']. cbn [fst snd] in *. subst r'.
    destruct r; cbn; auto. }
  intros x. specialize (X k). destruct (mem_run dbg (h ++ k)) as [a|] eqn:Ea, (mem_run dbg (h' ++ k)) as [b|] eqn:Eb; try contradiction; auto.
  destruct (run_weak dbg _ Ea) as (Ka & Ma & _), (run_weak dbg _ Eb) as (Kb & Mb & _). cbn [mem_step].
  destruct (@alike_step dbg (fst x) a b (snd x) Ma Mb Ka Kb X) as [E _].
  destruct (exec (mem_ops dbg (fst x)) a (snd x)) as [r a'], (exec (mem_ops dbg (fst x)) b (snd x)) as [r' b']. cbn [fst snd] in *. subst r'. now destruct r.
Qed.

(** ** Calls that are apart, in either order *)

Theorem mem_commute dbg w w' m o o' m1 m12 r r' : mirror m -> cok m -> apart o o' ->
  exec (mem_ops dbg w) m o = (r, m1) -> mirror m1 -> cok m1 ->
  exec (mem_ops dbg w') m1 o' = (r', m12) ->
  exists m2, exec (mem_ops dbg w') m o' = (r', m2) /\
    (mirror m2 -> cok m2 -> exists m21, exec (mem_ops dbg w) m2 o = (r, m21) /\ alike m12 m21).
Proof.
  intros M K (N1 & N2 & D) E1 M1 K1 E12.
  set (a := snd (request (mem_ops dbg w) m (gof m) o)). set (a' := snd (request (mem_ops dbg w') m (gof m) o')).
  assert (forall x, acts a x -> alters o x) as RA0 by (intros x; now apply request_acts). assert (forall x, acts a' x -> alters o' x) as RA0' by (intros x; now apply request_acts).
  pose proof (@call_within dbg w m o M N1) as F1. rewrite E1 in F1. cbn [snd] in F1. fold a in F1.
  assert (agree (depends o') m m1) as S1.
  { eapply agree_sub; [exact F1|]. intros x Dx Ax. exact (proj1 (D x) (RA0 x Ax) Dx). }
  destruct (@call_lock dbg w' (depends o') m m1 o' M M1 K K1 N2 (fun x H => H) S1) as [[Er L1] Rq1]. fold a' in Rq1.
  pose proof (@call_within dbg w' m o' M N2) as F2. fold a' in F2.
  pose proof (@call_within dbg w' m1 o' M1 N2) as F3. rewrite Rq1 in F3.
  rewrite E12 in Er, L1, F3. cbn [fst snd] in Er, L1, F3.
  destruct (exec (mem_ops dbg w') m o') as [r2' m2] eqn:E2. cbn [fst snd] in Er, L1, F2. subst r2'.
  exists m2. split; [reflexivity|]. intros M2 K2.
  assert (agree (depends o) m m2) as S2.
  { eapply agree_sub; [exact F2|]. intros x Dx Ax. exact (proj2 (D x) (RA0' x Ax) Dx). }
  destruct (@call_lock dbg w (depends o) m m2 o M M2 K K2 N1 (fun x H => H) S2) as [[Er2 L2] Rq2]. fold a in Rq2.
  pose proof (@call_within dbg w m2 o M2 N1) as F4. rewrite Rq2 in F4.
  destruct (exec (mem_ops dbg w) m2 o) as [r2 m21] eqn:E21. rewrite E1 in Er2, L2. cbn [fst snd] in Er2, L2, F4. subst r2.
  exists m21. split; [reflexivity|].
  (* pointwise *)
  assert (forall x, agree (fun y => y = x) m12 m21) as X.
  { intros x. destruct (acts_dec lt a x) as [A|A].
    - pose proof (alters_depends _ _ (RA0 x A)) as Dx. assert (~ acts a' x) as A'.
      { intros A'. exact (proj2 (D x) (RA0' x A') Dx). }
      apply agree_trans with m1; [apply agree_sym; eapply agree_sub; [exact F3|]|eapply agree_sub; [exact L2|]]; intros y ->; assumption.
    - destruct (acts_dec lt a' x) as [A'|A'].
      + pose proof (alters_depends _ _ (RA0' x A')) as Dx.
        apply agree_trans with m2; [apply agree_sym; eapply agree_sub; [exact L1|]|eapply agree_sub; [exact F4|]]; intros y ->; assumption.
      + apply agree_trans with m1; [apply agree_sym; eapply agree_sub; [exact F3|intros y ->; exact A']|].
        apply agree_trans with m; [apply agree_sym; eapply agree_sub; [exact F1|intros y ->; exact A]|].
        apply agree_trans with m2; [eapply agree_sub; [exact F2|intros y ->; exact A']|]. eapply agree_sub; [exact F4|intros y ->; exact A]. }
  split; [split|].
  - exact (proj1 (proj1 (X (AVertex nil_uuid)))).
  - intros x _. exact (proj2 (proj1 (X x)) x eq_refl).
  - intros mb n _ v. exact (proj2 (X (slot mb n)) mb n eq_refl v).
Qed.
