(** * Canonical ordered maps.

    Models [BTreeMap]/[BTreeSet] (lib/src/memory/datastore.rs) and a RocksDB
    column family (lib/src/rdb/managers.rs): an association list with strictly
    ascending keys.  The order invariant is a boolean check carried by the
    type, so two maps with the same contents are equal (Leibniz equality). *)
From Verif Require Import Base.

Set Implicit Arguments.

Fixpoint sortedb {K V} {O : Ord K} (l : list (K * V)) : bool :=
  match l with
  | [] => true
  | (k, _) :: r => match r with [] => true | (k', _) :: _ => ltb k k' && sortedb r end
  end.

Record omap (K V : Type) {O : Ord K} := mkO {
  elems : list (K * V);
  elems_sorted : sortedb elems = true }.
Arguments omap K V {O}.
Arguments mkO {K V O}.
Arguments elems {K V O}.

Section OMap.
  Context {K V : Type} {O : Ord K}.
  Notation omap := (omap K V).

  Definition klt (x y : K * V) : Prop := lt (fst x) (fst y).

  Lemma sortedb_iff (l : list (K * V)) : sortedb l = true <-> StronglySorted klt l.
  Proof.
    induction l as [|[k v] l IH]; cbn; [split; auto; constructor|].
    destruct l as [|[k' v'] r].
    - split; [repeat constructor|reflexivity].
    - rewrite andb_true_iff, IH, ltb_lt. split.
      + intros [Hlt Hs]. constructor; [assumption|].
        inversion Hs as [|? ? Hs' Hf]; subst. constructor; [exact Hlt|].
        rewrite Forall_forall in *. intros [k2 v2] Hin. specialize (Hf _ Hin).
        unfold klt in *; cbn in *. eapply lt_trans; eauto.
      + intros Hs. inversion Hs as [|? ? Hs' Hf]; subst. split; [|assumption].
        inversion Hf; subst. assumption.
  Qed.

  Fixpoint lget (k : K) (l : list (K * V)) : option V :=
    match l with
    | [] => None
    | (k', v) :: r => if eqb k k' then Some v else lget k r
    end.

  Fixpoint lset (k : K) (v : V) (l : list (K * V)) : list (K * V) :=
    match l with
    | [] => [(k, v)]
    | (k', v') :: r =>
      match cmp k k' with
      | Lt => (k, v) :: l
      | Eq => (k, v) :: r
      | Gt => (k', v') :: lset k v r
      end
    end.

  Definition ldel (k : K) (l : list (K * V)) : list (K * V) :=
    filter (fun kv => negb (eqb k (fst kv))) l.

  Lemma lset_keys k v l x : In x (lset k v l) -> x = (k, v) \/ In x l.
  Proof.
    induction l as [|[k' v'] l IH]; cbn; [intros [->|[]]; auto|].
    destruct (cmp k k'); cbn; intuition auto.
  Qed.

  Lemma lset_sorted k v l : sortedb l = true -> sortedb (lset k v l) = true.
  Proof.
    rewrite !sortedb_iff. induction 1 as [|[k' v'] l Hs IH Hf]; cbn.
    - repeat constructor.
    - destruct (cmp k k') eqn:E.
      + apply cmp_eq in E; subst. constructor; auto.
      + constructor; [constructor; auto|]. constructor; [exact E|].
        rewrite Forall_forall in *. intros x Hx. specialize (Hf _ Hx).
        unfold klt in *; cbn in *. eapply lt_trans; eauto.
      + constructor; [auto|]. rewrite Forall_forall in *. intros x Hx.
        apply lset_keys in Hx as [->|Hx]; [|auto]. apply gt_lt in E. exact E.
  Qed.

  Lemma filter_sortedb (p : K * V -> bool) l : sortedb l = true -> sortedb (filter p l) = true.
  Proof. rewrite !sortedb_iff. apply sorted_filter. Qed.

  Definition empty : omap := mkO [] eq_refl.
  Definition get (k : K) (m : omap) : option V := lget k (elems m).
  Definition set (k : K) (v : V) (m : omap) : omap :=
    mkO (lset k v (elems m)) (lset_sorted k v (elems m) (elems_sorted m)).
  Definition filt (p : K * V -> bool) (m : omap) : omap :=
    mkO (filter p (elems m)) (filter_sortedb p (elems m) (elems_sorted m)).
  Definition del (k : K) (m : omap) : omap := filt (fun kv => negb (eqb k (fst kv))) m.
  Definition mem (k : K) (m : omap) : bool :=
    match get k m with Some _ => true | None => false end.
  (** [range(k..)] *)
  Definition from (k : K) (m : omap) : list (K * V) :=
    skip_while (fun kv => ltb (fst kv) k) (elems m).
  Definition keys (m : omap) : list K := map fst (elems m).
  Definition size (m : omap) : N := lenN (elems m).

  Lemma elems_ssorted (m : omap) : StronglySorted klt (elems m).
  Proof. apply sortedb_iff, elems_sorted. Qed.

  Lemma omap_eq (m1 m2 : omap) : elems m1 = elems m2 -> m1 = m2.
  Proof.
    destruct m1 as [l1 H1], m2 as [l2 H2]; cbn; intros ->.
    f_equal. apply Eqdep_dec.UIP_dec, bool_dec.
  Qed.

  Lemma klt_irrefl x : ~ klt x x.
  Proof. apply lt_irrefl. Qed.
  Lemma klt_asym x y : klt x y -> ~ klt y x.
  Proof. apply lt_asym. Qed.

  Lemma lget_In k v l : StronglySorted klt l -> (lget k l = Some v <-> In (k, v) l).
  Proof.
    induction 1 as [|[k' v'] l Hs IH Hf]; cbn; [split; [discriminate|tauto]|].
    destruct (eqb k k') eqn:E.
    - apply eqb_eq in E; subst. split.
      + intros H; inversion H; subst; auto.
      + intros [H|H]; [inversion H; subst; auto|].
        rewrite Forall_forall in Hf. apply Hf in H. now apply lt_irrefl in H.
    - apply eqb_neq in E. rewrite IH. split; [auto|]. intros [H|H]; [congruence|assumption].
  Qed.

  Lemma get_In k v (m : omap) : get k m = Some v <-> In (k, v) (elems m).
  Proof. apply lget_In, elems_ssorted. Qed.

  Lemma omap_ext (m1 m2 : omap) : (forall k, get k m1 = get k m2) -> m1 = m2.
  Proof.
    intros H. apply omap_eq.
    apply (sorted_ext klt_irrefl klt_asym); try apply elems_ssorted.
    intros [k v]. rewrite <- !get_In, H. reflexivity.
  Qed.

  Lemma get_empty k : get k empty = None.
  Proof. reflexivity. Qed.

  Lemma get_set k v (m : omap) k' : get k' (set k v m) = if eqb k' k then Some v else get k' m.
  Proof.
    unfold get, set; cbn. generalize (elems_ssorted m).
    generalize (elems m) as l. induction l as [|[k1 v1] l IH]; intros Hs.
    - cbn. reflexivity.
    - inversion Hs as [|? ? Hs' Hf]; subst. cbn [lset].
      destruct (cmp k k1) eqn:E; cbn [lget].
      + apply cmp_eq in E; subst. destruct (eqb k' k1) eqn:E'; reflexivity.
      + reflexivity.
      + rewrite IH by assumption.
        destruct (eqb k' k1) eqn:E1; destruct (eqb k' k) eqn:E2; try reflexivity.
        apply eqb_eq in E1; apply eqb_eq in E2; subst. rewrite cmp_refl in E; discriminate.
  Qed.

  Lemma get_set_same k v (m : omap) : get k (set k v m) = Some v.
  Proof. now rewrite get_set, eqb_refl. Qed.

  Lemma get_set_other k v (m : omap) k' : k' <> k -> get k' (set k v m) = get k' m.
  Proof. intros H. rewrite get_set. apply eqb_neq in H. now rewrite H. Qed.

  Lemma get_filt p (m : omap) k :
    get k (filt p m) = match get k m with Some v => if p (k, v) then Some v else None | None => None end.
  Proof.
    destruct (get k (filt p m)) as [v|] eqn:E.
    - apply get_In in E. cbn in E. apply filter_In in E as [Hin Hp].
      apply get_In in Hin. now rewrite Hin, Hp.
    - destruct (get k m) as [v|] eqn:E'; [|reflexivity].
      destruct (p (k, v)) eqn:Hp; [|reflexivity].
      assert (get k (filt p m) = Some v) as H; [|congruence].
      apply get_In. cbn. apply filter_In. split; [now apply get_In|assumption].
  Qed.

  Lemma get_del k (m : omap) k' : get k' (del k m) = if eqb k' k then None else get k' m.
  Proof.
    unfold del. rewrite get_filt; cbn. rewrite (eqb_sym k k').
    destruct (get k' m); destruct (eqb k' k); reflexivity.
  Qed.

  Lemma get_del_same k (m : omap) : get k (del k m) = None.
  Proof. now rewrite get_del, eqb_refl. Qed.

  Lemma get_del_other k (m : omap) k' : k' <> k -> get k' (del k m) = get k' m.
  Proof. intros H. rewrite get_del. apply eqb_neq in H. now rewrite H. Qed.

  Lemma mem_get k (m : omap) : mem k m = true <-> exists v, get k m = Some v.
  Proof.
    unfold mem. destruct (get k m) as [v|]; split; try easy; [eauto|now intros [v]].
  Qed.
  Lemma mem_false k (m : omap) : mem k m = false <-> get k m = None.
  Proof. unfold mem. destruct (get k m); split; easy. Qed.

  Lemma mem_set k v (m : omap) k' : mem k' (set k v m) = eqb k' k || mem k' m.
  Proof. unfold mem. rewrite get_set. now destruct (eqb k' k). Qed.
  Lemma mem_del k (m : omap) k' : mem k' (del k m) = negb (eqb k' k) && mem k' m.
  Proof. unfold mem. rewrite get_del. now destruct (eqb k' k). Qed.

  Lemma set_same k v (m : omap) : get k m = Some v -> set k v m = m.
  Proof.
    intros H. apply omap_ext. intros k'. rewrite get_set.
    destruct (eqb k' k) eqn:E; [|reflexivity]. apply eqb_eq in E; now subst.
  Qed.
  Lemma del_absent k (m : omap) : get k m = None -> del k m = m.
  Proof.
    intros H. apply omap_ext. intros k'. rewrite get_del.
    destruct (eqb k' k) eqn:E; [|reflexivity]. apply eqb_eq in E; now subst.
  Qed.

  Lemma skip_while_sorted p l : StronglySorted klt l -> StronglySorted klt (skip_while p l).
  Proof.
    induction 1 as [|a l Hs IH Hf]; cbn; [constructor|].
    destruct (p a); [assumption|]. now constructor.
  Qed.
  Lemma from_sorted k (m : omap) : StronglySorted klt (from k m).
  Proof. apply skip_while_sorted, elems_ssorted. Qed.

  Lemma from_filter k (m : omap) : from k m = filter (fun kv => negb (ltb (fst kv) k)) (elems m).
  Proof.
    unfold from. generalize (elems_ssorted m). generalize (elems m) as l.
    induction 1 as [|[k1 v1] l Hs IH Hf]; cbn; [reflexivity|].
    destruct (ltb k1 k) eqn:E; cbn; [assumption|].
    f_equal. symmetry. clear IH.
    assert (forall x, In x l -> negb (ltb (fst x) k) = true) as H.
    { rewrite Forall_forall in Hf. intros x Hx. specialize (Hf _ Hx).
      apply negb_true_iff, ltb_ge. apply ltb_ge in E. intros Hlt. apply E.
      unfold klt in Hf; cbn in Hf. eapply lt_trans; eauto. }
    clear -H. induction l as [|x l IH]; cbn; [reflexivity|].
    rewrite H by now left. f_equal. apply IH. intros y Hy. apply H. now right.
  Qed.

  Lemma from_In k (m : omap) k' v : In (k', v) (from k m) <-> get k' m = Some v /\ ~ lt k' k.
  Proof.
    rewrite from_filter, filter_In, <- get_In. cbn. rewrite negb_true_iff, ltb_ge. reflexivity.
  Qed.

  Lemma take_while_sorted (R : K * V -> K * V -> Prop) p l :
    StronglySorted R l -> StronglySorted R (take_while p l).
  Proof.
    induction 1 as [|a l Hs IH Hf]; cbn; [constructor|].
    destruct (p a); [|constructor]. constructor; [assumption|].
    rewrite Forall_forall in *. intros x Hx. apply take_while_incl in Hx. apply Hf; tauto.
  Qed.

  (** A prefix of an ascending list taken while a downward-closed predicate
      holds is the filter by that predicate. *)
  Lemma take_while_filter p l :
    StronglySorted klt l ->
    (forall x y, In x l -> In y l -> klt x y -> p y = true -> p x = true) ->
    take_while p l = filter p l.
  Proof.
    induction 1 as [|a l Hs IH Hf]; cbn; intros Hp; [reflexivity|].
    destruct (p a) eqn:E.
    - f_equal. apply IH. intros x y Hx Hy. apply Hp; auto.
    - symmetry. clear IH. rewrite Forall_forall in Hf.
      assert (forall x, In x l -> p x = false) as H.
      { intros x Hx. destruct (p x) eqn:Ex; [|reflexivity].
        rewrite (Hp a x) in E; auto. }
      clear -H. induction l as [|x l IH]; cbn; [reflexivity|].
      rewrite H by now left. apply IH. intros y Hy. apply H. now right.
  Qed.

  Lemma keys_sorted (m : omap) : StronglySorted lt (keys m).
  Proof.
    unfold keys. generalize (elems_ssorted m). generalize (elems m) as l.
    induction 1 as [|a l Hs IH Hf]; cbn; constructor; auto.
    rewrite Forall_forall in *. intros k Hk. apply in_map_iff in Hk as (x & <- & Hx).
    now apply Hf.
  Qed.

  Lemma keys_In k (m : omap) : In k (keys m) <-> mem k m = true.
  Proof.
    unfold keys. rewrite in_map_iff, mem_get. split.
    - intros ([k' v] & <- & H). exists v. now apply get_In.
    - intros [v H]. apply get_In in H. now exists (k, v).
  Qed.

  Lemma keys_NoDup (m : omap) : NoDup (keys m).
  Proof. eapply sorted_NoDup; [apply lt_irrefl|apply keys_sorted]. Qed.
End OMap.

Notation oset K := (omap K unit).
Definition add {K} {O : Ord K} (k : K) (m : oset K) : oset K := set k tt m.
Arguments empty {K V O}.

Lemma mem_add {K} {O : Ord K} (k k' : K) (m : oset K) : mem k' (add k m) = eqb k' k || mem k' m.
Proof. apply mem_set. Qed.

Lemma oset_ext {K} {O : Ord K} (m1 m2 : oset K) : (forall k, mem k m1 = mem k m2) -> m1 = m2.
Proof.
  intros H. apply omap_ext. intros k. specialize (H k). unfold mem in H.
  destruct (get k m1) as [[]|]; destruct (get k m2) as [[]|]; congruence.
Qed.

Lemma get_oset {K} {O : Ord K} (k : K) (m : oset K) : get k m = Some tt <-> mem k m = true.
Proof. unfold mem. destruct (get k m) as [[]|]; split; congruence. Qed.

(** The set of keys of a map. *)
Definition unit_elems {K V} (l : list (K * V)) : list (K * unit) := map (fun kv => (fst kv, tt)) l.

Lemma unit_elems_sorted {K V} {O : Ord K} (l : list (K * V)) :
  sortedb l = true -> sortedb (unit_elems l) = true.
Proof.
  unfold unit_elems. induction l as [|[k v] l IH]; [reflexivity|].
  destruct l as [|[k' v'] r]; [reflexivity|]. intros H. change (ltb k k' && sortedb ((k', v') :: r) = true) in H.
  apply andb_true_iff in H as [H1 H2]. specialize (IH H2).
  change (ltb k k' && sortedb (map (fun kv => (fst kv, tt)) ((k', v') :: r)) = true).
  now rewrite H1, IH.
Qed.

Definition dom {K V} {O : Ord K} (m : omap K V) : oset K :=
  mkO (unit_elems (elems m)) (unit_elems_sorted (elems m) (elems_sorted m)).

Lemma mem_dom {K V} {O : Ord K} (m : omap K V) k : mem k (dom m) = mem k m.
Proof.
  unfold mem, get, dom, unit_elems; cbn. generalize (elems m) as l.
  induction l as [|[k' v'] l IH]; cbn; [reflexivity|].
  destruct (eqb k k'); [reflexivity|assumption].
Qed.

Lemma keys_dom {K V} {O : Ord K} (m : omap K V) : keys (dom m) = keys m.
Proof. unfold keys, dom, unit_elems; cbn. rewrite map_map. reflexivity. Qed.
