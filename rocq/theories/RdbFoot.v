(** * The RocksDB datastore reads and writes no more than [Foot.v] says *)
From Verif Require Import Base OMap Json Types Util Db Rdb Spec MemFacts QueryFacts SpecFacts KeyFacts Conc RdbProg Foot.

Set Implicit Arguments.

Lemma filter_ssorted {A} (Q : A -> A -> Prop) f l : StronglySorted Q l -> StronglySorted Q (filter f l).
Proof.
  induction 1 as [|a l Hs IH Hf]; cbn; [constructor|]. destruct (f a); [|exact IH]. constructor; [exact IH|].
  rewrite Forall_forall in *. intros x Hx. apply filter_In in Hx as [Hx _]. auto.
Qed.

Lemma takeN_In {A} n (l : list A) x : In x (takeN n l) -> In x l.
Proof.
  revert n. induction l as [|y l IH]; intros n; cbn [takeN]; [easy|]. destruct (N.eqb n 0); [intros []|].
  intros [->|Hx]; [now left|right; eauto].
Qed.

Section Foot.
  Variable H : list byte -> N.
  Variable enc : json -> bytes.
  Variable dec : bytes -> option json.

  (** ** Where a part is stored *)

  Definition region (x : part) (c : cfid) (k : bytes) : Prop :=
    match x with
    | AVertex id => c = CFV /\ k = vertex_key H id
    | AnEdge e => c = CFE /\ k = edge_key H e \/ c = CFR /\ k = edge_key H (reversed e)
    | AVProp id n => c = CFVP /\ k = vprop_key H id n \/ c = CFVV /\ exists v, k = vvalue_key H n v id
    | AnEProp e n => c = CFEP /\ k = eprop_key H e n \/ c = CFEV /\ exists v, k = evalue_key H n v e
    end.

  Lemma reversed_inj e f : reversed e = reversed f -> e = f.
  Proof. destruct e, f. unfold reversed. cbn. congruence. Qed.

  Lemma region_inj x y c k : region x c k -> region y c k -> x = y.
  Proof.
    destruct x as [i|e|i n|e n], y as [i'|e'|i' n'|e' n']; cbn [region]; intros X Y;
      repeat match goal with
        | X : _ /\ _ |- _ => destruct X
        | X : _ \/ _ |- _ => destruct X
        | X : ex _ |- _ => destruct X end; subst; try discriminate.
    - match goal with E : _ = _ |- _ => apply vertex_key_inj in E end. congruence.
    - match goal with E : _ = _ |- _ => apply edge_key_inj in E end. congruence.
    - match goal with E : _ = _ |- _ => apply edge_key_inj, reversed_inj in E end. congruence.
    - match goal with E : _ = _ |- _ => apply (@vpk_inj H (i, n) (i', n')) in E end. congruence.
    - match goal with E : _ = _ |- _ => rewrite !vvalue_key_vvk in E; apply vvk_inj in E end. congruence.
    - match goal with E : _ = _ |- _ => apply (@epk_inj H (e, n) (e', n')) in E end. congruence.
    - match goal with E : _ = _ |- _ => rewrite !evalue_key_evk in E; apply evk_inj in E end. congruence.
  Qed.

  (** ** Databases that differ outside a set of parts *)

  Definition keeps (R : part -> Prop) (d d' : db) : Prop :=
    forall c k, get k (cf_of d' c) = get k (cf_of d c) \/ exists x, ~ R x /\ region x c k.

  (** Every entry of the batch belongs to a part in [W]. *)
  Definition wop_at (w : wop) : cfid * bytes := match w with Put c k _ => (c, k) | Del c k => (c, k) end.
  Definition within (W : part -> Prop) (b : batch) : Prop :=
    forall w, In w b -> exists x, W x /\ region x (fst (wop_at w)) (snd (wop_at w)).

  (** The keys of the two edge tables are keys of edges. *)
  Definition keyed (d : db) : Prop :=
    forall c k, c = CFE \/ c = CFR -> mem k (cf_of d c) = true -> exists e, k = edge_key H e.

  Lemma cf_set_eq d c x : cf_of (cf_set d c x) c = x.
  Proof. now destruct c. Qed.
  Lemma cf_set_other d c x c' : c' <> c -> cf_of (cf_set d c x) c' = cf_of d c'.
  Proof. destruct c, c'; easy. Qed.

  Definition cfid_dec (c c' : cfid) : {c = c'} + {c <> c'}.
  Proof. decide equality. Defined.

  Lemma get_wop d w c k : (c, k) <> wop_at w -> get k (cf_of (apply_wop d w) c) = get k (cf_of d c).
  Proof.
    intros N. destruct w as [c' k' v|c' k']; cbn in *; (destruct (cfid_dec c c') as [->|Ne]; [rewrite cf_set_eq|now rewrite cf_set_other]);
      [apply get_set_other|apply get_del_other]; congruence.
  Qed.

  Lemma within_keeps W R b : within W b -> (forall x, W x -> ~ R x) -> forall d, keeps R d (apply_batch b d).
  Proof.
    intros Wi Ds d c k. unfold apply_batch. revert d. induction b as [|w b IH]; intros d; cbn [fold_left]; [now left|].
    destruct (IH (fun w' Hw => Wi w' (or_intror Hw)) (apply_wop d w)) as [E|E]; [|now right]. rewrite E.
    assert (forall p q : cfid * bytes, {p = q} + {p <> q}) as Dc.
    { decide equality; [|apply cfid_dec]. apply list_eq_dec. apply Byte.byte_eq_dec. }
    destruct (Dc (c, k) (wop_at w)) as [Ew|Ne]; [|left; now apply get_wop].
    right. destruct (Wi w (or_introl eq_refl)) as (x & Wx & Rx). rewrite <- Ew in Rx. exists x. split; [now apply Ds|exact Rx].
  Qed.

  Lemma region_edge x c k : region x c k -> c = CFE \/ c = CFR -> exists e, k = edge_key H e.
  Proof.
    destruct x; cbn [region]; intros X C; repeat match goal with
        | X : _ /\ _ |- _ => destruct X
        | X : _ \/ _ |- _ => destruct X end; subst; try discriminate; eauto.
  Qed.

  Lemma within_keyed W b : within W b -> forall d, keyed d -> keyed (apply_batch b d).
  Proof.
    unfold apply_batch. induction b as [|w b IH]; intros Wi d K; cbn [fold_left]; [exact K|].
    apply (IH (fun w' Hw => Wi w' (or_intror Hw))). clear IH. destruct (Wi w (or_introl eq_refl)) as (x & _ & Rx).
    intros c k C M. destruct w as [c' k' v|c' k']; cbn in *; (destruct (cfid_dec c c') as [->|Ne];
      [rewrite cf_set_eq in M|rewrite cf_set_other in M by assumption; eauto]).
    - rewrite mem_set in M. apply orb_true_iff in M as [M|M]; [|eauto]. apply eqb_eq in M. subst k'. eapply region_edge; eauto.
    - rewrite mem_del in M. apply andb_true_iff in M as [_ M]. eauto.
  Qed.

  (** ** Reads that only see parts in [R] *)
  Section Same.
    Variable R : part -> Prop.
    Variables d d' : db.
    Hypothesis K : keeps R d d'.

    Lemma get_same x c k : region x c k -> R x -> get k (cf_of d' c) = get k (cf_of d c).
    Proof.
      intros Rg Rx. destruct (K c k) as [E|(y & Ry & Rg')]; [exact E|]. destruct Ry. now rewrite <- (@region_inj x y c k Rg Rg').
    Qed.
    Lemma mem_same x c k : region x c k -> R x -> mem k (cf_of d' c) = mem k (cf_of d c).
    Proof.
      intros Rg Rx. pose proof (@get_same x c k Rg Rx) as E. destruct (mem k (cf_of d c)) eqn:M.
      - apply mem_get in M as (v & M). apply mem_get. exists v. congruence.
      - apply mem_false in M. apply mem_false. congruence.
    Qed.
    Lemma cf_same c : (forall x k, region x c k -> R x) -> cf_of d' c = cf_of d c.
    Proof. intros A. apply omap_ext. intros k. destruct (K c k) as [E|(y & Ry & Rg')]; [exact E|]. destruct Ry. eauto. Qed.
    Lemma scan_same c p : (forall x r, region x c (p ++ r) -> R x) -> scan_prefix (cf_of d' c) p p = scan_prefix (cf_of d c) p p.
    Proof.
      intros A. apply (@sorted_ext _ _ klt_irrefl klt_asym); try apply scan_prefix_sorted.
      intros [k v]. rewrite !scan_prefix_In. split; intros [G (r & ->)]; (split; [|eauto]).
      - destruct (K c (p ++ r)) as [E|(y & Ry & Rg)]; [congruence|]. destruct Ry. eauto.
      - destruct (K c (p ++ r)) as [E|(y & Ry & Rg)]; [congruence|]. destruct Ry. eauto.
    Qed.

    (** The edges of one vertex, from a starting point on. *)
    Lemma root_same c id lo : keyed d -> keyed d' -> c = CFE \/ c = CFR -> eout lo = id ->
      (forall x r, region x c (ub id ++ r) -> R x) ->
      take_while (ok_or_true (fun e => eqb (eout e) id)) (edges_from H (cf_of d' c) lo) =
      take_while (ok_or_true (fun e => eqb (eout e) id)) (edges_from H (cf_of d c) lo).
    Proof.
      intros K1 K2 C El A. unfold edges_from.
      assert (forall dd, keyed dd -> take_while (ok_or_true (fun e => eqb (eout e) id)) (map dec_edge (from (edge_key H lo) (cf_of dd c))) =
        map dec_edge (filter (fun kv => starts_with (ub id) (fst kv)) (from (edge_key H lo) (cf_of dd c)))) as G.
      { intros dd Kd.
        assert (forall kv, In kv (from (edge_key H lo) (cf_of dd c)) -> ok_or_true (fun e => eqb (eout e) id) (dec_edge kv) = starts_with (ub id) (fst kv)) as P.
        { intros [k v] Hin. apply from_In in Hin as [Hin _]. destruct (Kd c k C) as (e & ->); [apply mem_get; eauto|].
          rewrite dec_edge_ok. cbn [ok_or_true fst]. rewrite edge_key_eq.
          destruct (starts_with (ub id) _) eqn:Sw.
          - apply starts_with_iff in Sw as (r & E). apply ub_prefix_free in E as [E _]. now apply eqb_eq.
          - destruct (eqb (eout e) id) eqn:Ee; [|reflexivity]. apply eqb_eq in Ee. subst id.
            rewrite (proj2 (starts_with_iff _ _)) in Sw; [discriminate|]. rewrite Ee. eauto. }
        rewrite <- (take_while_is_filter (R := klt (V := bytes))).
        - revert P. generalize (from (edge_key H lo) (cf_of dd c)). induction l as [|kv l IH]; intros P; [reflexivity|].
          cbn [map take_while]. rewrite (P kv) by now left. destruct (starts_with (ub id) (fst kv)); [|reflexivity].
          cbn [map]. f_equal. apply IH. intros x Hx. apply P. now right.
        - apply from_sorted.
        - intros [x vx] [y vy] Hx Hy Hlt. cbn [fst]. rewrite !starts_with_iff. intros (r & ->).
          apply from_In in Hx as [_ Hx]. eapply between_prefix; [|exact Hlt].
          intros Lx. apply Hx. rewrite edge_key_eq, El. clear - Lx.
          eapply lt_trans; [exact Lx|]. change (list_cmp (ub id) (ub id ++ ik (et lo) ++ ub (ein lo)) = Lt). rewrite <- (app_nil_r (ub id)) at 1. rewrite list_cmp_app_same. reflexivity. }
      rewrite !G by assumption. f_equal.
      apply (@sorted_ext _ _ klt_irrefl klt_asym).
      1,2: apply filter_ssorted, from_sorted.
      intros [k v]. rewrite !filter_In, !from_In. cbn [fst]. rewrite !starts_with_iff.
      split; intros [[G1 G2] (r & ->)]; (split; [split|]; eauto);
        (destruct (K c (ub id ++ r)) as [E|(y & Ry & Rg)]; [congruence|]; destruct Ry; eauto).
    Qed.
  End Same.

  (** ** Programs

      [foot R W Q p]: what [p] reads depends on the parts in [R] only, what it
      writes is in [W], and its result satisfies [Q]. *)
  Section Programs.
    Variables R W : part -> Prop.

    Fixpoint foot {A} (Q : A -> Prop) (p : prog A) : Prop :=
      match p with
      | PRet x => match x with Ok a => Q a | _ => True end
      | PDb k => (forall d, foot Q (k d)) /\ (forall d d', keyed d -> keyed d' -> keeps R d d' -> k d' = k d)
      | PIx k => forall ix, foot Q (k ix)
      | PShared k => forall ix, foot Q (k ix)
      | PExcl _ | PSetIx _ _ => False
      | PWrite b k => within W b /\ foot Q k
      end.

    Lemma foot_bind {A B} (Q : A -> Prop) (Q' : B -> Prop) p f :
      foot Q p -> (forall a, Q a -> foot Q' (f a)) -> foot Q' (pbind p f).
    Proof.
      intros F G. induction p as [x|k IH|k IH|k IH|k IH|ix2 k IH|b k IH]; cbn in *; auto; try contradiction.
      - destruct x; cbn; auto.
      - destruct F as [F1 F2]. split; [auto|]. intros d d' K1 K2 K. f_equal. auto.
      - destruct F as [F1 F2]. auto.
    Qed.
    Lemma foot_imp {A} (Q Q' : A -> Prop) p : foot Q p -> (forall a, Q a -> Q' a) -> foot Q' p.
    Proof.
      intros F G. induction p as [x|k IH|k IH|k IH|k IH|ix2 k IH|b k IH]; cbn in *; auto; try contradiction.
      - destruct x; cbn; auto.
      - destruct F as [F1 F2]. auto.
      - destruct F as [F1 F2]. auto.
    Qed.
    (** An outcome handed on with [?]. *)
    Lemma foot_then {A B} (Q : A -> Prop) (Q' : B -> Prop) (x : outcome A) f :
      (forall a, x = Ok a -> Q a) -> (forall a, Q a -> foot Q' (f a)) -> foot Q' (pbind (PRet x) f).
    Proof. intros X G. apply foot_bind with (Q := Q); [|exact G]. cbn. destruct x; auto. Qed.
    (** One read, used through [g] only. *)
    Lemma foot_rd {A B C} (Q : B -> Prop) (f : db -> outcome A) (g : db -> C) (h : C -> prog B) (F : A -> prog B) :
      (forall d, pbind (PRet (f d)) F = h (g d)) ->
      (forall d d', keyed d -> keyed d' -> keeps R d d' -> g d' = g d) ->
      (forall d, foot Q (h (g d))) -> foot Q (pbind (rd f) F).
    Proof.
      intros E S G. unfold rd.
      change ((forall d, foot Q (pbind (PRet (f d)) F)) /\ (forall d d', keyed d -> keyed d' -> keeps R d d' -> pbind (PRet (f d')) F = pbind (PRet (f d)) F)).
      split; [intros d; rewrite E; apply G|]. intros d d' K1 K2 K. rewrite !E. f_equal. eauto.
    Qed.
    Lemma foot_rd0 {A} (Q : A -> Prop) (f : db -> outcome A) :
      (forall d d', keeps R d d' -> f d' = f d) -> (forall d a, f d = Ok a -> Q a) -> foot Q (rd f).
    Proof.
      intros S G. cbn. split; [|intros; f_equal; auto]. intros d. specialize (G d). destruct (f d); auto.
    Qed.
    Lemma foot_any {A} (f : db -> outcome A) : (forall d d', keeps R d d' -> f d' = f d) -> foot (fun _ => True) (rd f).
    Proof. intros S. now apply foot_rd0. Qed.

    Lemma foot_each {A} (l : list (outcome A)) f : (forall a, In (Ok a) l -> foot (within W) (f a)) -> foot (within W) (p_each l f).
    Proof.
      induction l as [|x r IH]; intros F; cbn [p_each].
      - cbn. intros w [].
      - apply foot_then with (Q := fun a => x = Ok a); [auto|]. intros a ->. apply foot_bind with (Q := within W); [apply F; now left|].
        intros b Wb. apply foot_bind with (Q := within W); [apply IH; intros; apply F; now right|]. intros bs Wbs. cbn.
        intros w Hw. apply in_app_or in Hw as [Hw|Hw]; auto.
    Qed.
    Lemma foot_over {A} (l : list A) f : (forall a, In a l -> foot (within W) (f a)) -> foot (within W) (p_over l f).
    Proof. intros F. apply foot_each. intros a Ha. apply in_map_iff in Ha as (b & E & Hb). injection E as ->. auto. Qed.
    Lemma foot_guarded f : (forall ix, foot (within W) (f ix)) -> foot (fun _ => True) (p_guarded f).
    Proof. intros F. cbn. intros ix. apply foot_bind with (Q := within W); [apply F|]. cbn. auto. Qed.

    Lemma within_app b b' : within W b -> within W b' -> within W (b ++ b').
    Proof. intros A B w Hw. apply in_app_or in Hw as [Hw|Hw]; auto. Qed.
    Lemma within_nil : within W [].
    Proof. intros w []. Qed.
    Lemma within_one x w : W x -> region x (fst (wop_at w)) (snd (wop_at w)) -> within W [w].
    Proof. intros A B w' [<-|[]]. eauto. Qed.

    (** *** Reading methods *)

    Lemma r_vertex_get d d' id : keeps R d d' -> R (AVertex id) -> vertex_get H d' id = vertex_get H d id.
    Proof. intros K Rx. unfold vertex_get. change (d_vertices ?x) with (cf_of x CFV). rewrite (@get_same R d d' K (AVertex id)); cbn; auto. Qed.
    Lemma r_vertex_exists d d' id : keeps R d d' -> R (AVertex id) -> vertex_exists H d' id = vertex_exists H d id.
    Proof. intros K Rx. unfold vertex_exists. change (d_vertices ?x) with (cf_of x CFV). rewrite (@mem_same R d d' K (AVertex id)); cbn; auto. Qed.
    Lemma r_edge_contains d d' e : keeps R d d' -> R (AnEdge e) -> edge_contains H d' e = edge_contains H d e.
    Proof. intros K Rx. unfold edge_contains. change (d_edges ?x) with (cf_of x CFE). rewrite (@mem_same R d d' K (AnEdge e)); cbn; auto. Qed.
    Lemma r_vprop_get d d' id n : keeps R d d' -> R (AVProp id n) -> vprop_get H dec d' id n = vprop_get H dec d id n.
    Proof. intros K Rx. unfold vprop_get. change (d_vprops ?x) with (cf_of x CFVP). rewrite (@get_same R d d' K (AVProp id n)); cbn; auto. Qed.
    Lemma r_eprop_get d d' e n : keeps R d d' -> R (AnEProp e n) -> eprop_get H dec d' e n = eprop_get H dec d e n.
    Proof. intros K Rx. unfold eprop_get. change (d_eprops ?x) with (cf_of x CFEP). rewrite (@get_same R d d' K (AnEProp e n)); cbn; auto. Qed.
    Lemma r_vertices d d' : keeps R d d' -> (forall id, R (AVertex id)) -> d_vertices d' = d_vertices d.
    Proof.
      intros K A. apply (@cf_same R d d' K CFV). intros x k. destruct x; cbn [region]; auto; intros X;
        repeat match goal with X : _ /\ _ |- _ => destruct X | X : _ \/ _ |- _ => destruct X end; discriminate.
    Qed.
    Lemma r_edges d d' : keeps R d d' -> (forall e, R (AnEdge e)) -> d_edges d' = d_edges d.
    Proof.
      intros K A. apply (@cf_same R d d' K CFE). intros x k. destruct x; cbn [region]; auto; intros X;
        repeat match goal with X : _ /\ _ |- _ => destruct X | X : _ \/ _ |- _ => destruct X end; discriminate.
    Qed.
    Lemma r_vprops d d' id : keeps R d d' -> (forall n, R (AVProp id n)) -> vprops_for_owner H dec d' id = vprops_for_owner H dec d id.
    Proof.
      intros K A. unfold vprops_for_owner. f_equal. apply (@scan_same R d d' K CFVP). intros x r. destruct x; cbn [region]; intros X;
        repeat match goal with X : _ /\ _ |- _ => destruct X | X : _ \/ _ |- _ => destruct X end; try discriminate.
      match goal with E : _ = vprop_key _ _ _ |- _ => rewrite prefix_uuid, vprop_key_eq in E; apply ub_prefix_free in E as [<- _] end. auto.
    Qed.
    Lemma r_eprops d d' e : keeps R d d' -> (forall n, R (AnEProp e n)) -> eprops_for_owner H dec d' e = eprops_for_owner H dec d e.
    Proof.
      intros K A. unfold eprops_for_owner. f_equal. apply (@scan_same R d d' K CFEP). intros x r. destruct x; cbn [region]; intros X;
        repeat match goal with X : _ /\ _ |- _ => destruct X | X : _ \/ _ |- _ => destruct X end; try discriminate.
      match goal with E : _ = eprop_key _ _ _ |- _ => rewrite eprop_key_eq in E; apply edge_key_prefix_free in E as [<- _] end. auto.
    Qed.
    Lemma rooted id (c : cfid) : c = CFE \/ c = CFR ->
      (forall e, match c with CFE => eout e | _ => ein e end = id -> R (AnEdge e)) -> forall x r, region x c (ub id ++ r) -> R x.
    Proof.
      intros C A x r. destruct C as [-> | ->]; destruct x; cbn [region]; intros X;
        repeat match goal with X : _ /\ _ |- _ => destruct X | X : _ \/ _ |- _ => destruct X end; try discriminate;
        match goal with E : _ = edge_key _ _ |- _ => rewrite edge_key_eq in E; apply ub_prefix_free in E as [E _] end; apply A; auto.
    Qed.
    Lemma r_root d d' c id : keeps R d d' -> c = CFE \/ c = CFR ->
      (forall e, match c with CFE => eout e | _ => ein e end = id -> R (AnEdge e)) ->
      edges_for_root H (cf_of d' c) id = edges_for_root H (cf_of d c) id.
    Proof.
      intros K C A. unfold edges_for_root. f_equal. apply (@scan_same R d d' K c). rewrite prefix_uuid. now apply rooted.
    Qed.
    Lemma r_vvalues d d' n p : keeps R d d' -> (forall id, R (AVProp id n)) -> (exists r, p = ik n ++ r) ->
      scan_prefix (d_vvalues d') p p = scan_prefix (d_vvalues d) p p.
    Proof.
      intros K A (r0 & ->). apply (@scan_same R d d' K CFVV). intros x r. destruct x; cbn [region]; intros X;
        repeat match goal with X : _ /\ _ |- _ => destruct X | X : _ \/ _ |- _ => destruct X | X : ex _ |- _ => destruct X end; try discriminate.
      match goal with E : _ = vvalue_key _ _ _ _ |- _ => rewrite vvalue_key_eq, <- app_assoc in E; apply ik_prefix_free in E as [<- _] end. auto.
    Qed.
    Lemma r_evalues d d' n p : keeps R d d' -> (forall e, R (AnEProp e n)) -> (exists r, p = ik n ++ r) ->
      scan_prefix (d_evalues d') p p = scan_prefix (d_evalues d) p p.
    Proof.
      intros K A (r0 & ->). apply (@scan_same R d d' K CFEV). intros x r. destruct x; cbn [region]; intros X;
        repeat match goal with X : _ /\ _ |- _ => destruct X | X : _ \/ _ |- _ => destruct X | X : ex _ |- _ => destruct X end; try discriminate.
      match goal with E : _ = evalue_key _ _ _ _ |- _ => rewrite evalue_key_eq, <- app_assoc in E; apply ik_prefix_free in E as [<- _] end. auto.
    Qed.

    (** *** The query interpreter *)

    Definition ids_in (P : uuid -> Prop) (it : iter vertex) : Prop := forall v, In (Ok v) it -> P (vid v).

    Lemma collect_In {A} (l : list (outcome A)) r x : collect l = Ok r -> In x r -> In (Ok x) l.
    Proof.
      revert r. induction l as [|y l IH]; intros r E Hx; cbn in E.
      - inversion E; subst. destruct Hx.
      - destruct y as [a| |]; try discriminate. cbn in E. destruct (collect l) as [r'| |] eqn:C; try discriminate. cbn in E. inversion E; subst.
        destruct Hx as [<-|Hx]; [now left|right; eauto].
    Qed.

    Lemma foot_specific_vertices ids : (forall id, In id ids -> R (AVertex id)) ->
      foot (ids_in (fun id => In id ids)) (p_specific_vertices H ids).
    Proof.
      induction ids as [|id r IH]; intros A; cbn [p_specific_vertices].
      - cbn. intros v [].
      - apply foot_bind with (Q := fun o => True).
        { apply foot_any. intros d d' K. f_equal. apply r_vertex_get; auto. apply A. now left. }
        intros o _. apply foot_bind with (Q := ids_in (fun id => In id r)); [apply IH; intros; apply A; now right|].
        intros rest I0. cbn. intros v Hv. destruct o as [[t|]| |]; cbn in Hv.
        + destruct Hv as [Hv|Hv]; [inversion Hv; subst; now left|right; now apply I0].
        + right. now apply I0.
        + destruct Hv as [Hv|Hv]; [discriminate|right; now apply I0].
        + destruct Hv as [Hv|Hv]; [discriminate|right; now apply I0].
    Qed.

    Lemma foot_existing l : (forall id, R (AVertex id)) -> foot (fun _ => True) (p_existing H l).
    Proof.
      intros A. induction l as [|x r IH]; cbn [p_existing]; [exact I|].
      assert (forall y, foot (fun _ => True) (let! rest := p_existing H r in PRet (Ok (y :: rest)))) as G.
      { intros y. apply foot_bind with (Q := fun _ => True); [exact IH|]. cbn. auto. }
      destruct x as [id| |]; auto. apply foot_bind with (Q := fun _ => True).
      { apply foot_any. intros d d' K. f_equal. apply r_vertex_exists; auto. }
      intros b _. apply foot_bind with (Q := fun _ => True); [exact IH|]. cbn. auto.
    Qed.

    Lemma foot_map {A B} (f : A -> B) p : foot (fun _ => True) p -> foot (fun _ => True) (pmap f p).
    Proof. intros F. unfold pmap. apply foot_bind with (Q := fun _ => True); [exact F|]. cbn. auto. Qed.

    Lemma foot_vids n : (forall x, indexed_under n x -> R x) -> foot (fun _ => True) (p_vertex_ids_with_property H n).
    Proof.
      intros A. cbn [p_vertex_ids_with_property foot]. intros ix. destruct (mem n ix); [|exact I].
      apply foot_bind with (Q := fun _ => True).
      - apply foot_any. intros d d' K. unfold vvalues_for_name. do 2 f_equal. apply r_vvalues with (n := n); auto.
        + intros id. apply A. right. left. eauto.
        + exists []. rewrite prefix_ident. now rewrite app_nil_r.
      - intros l _. apply foot_map, foot_existing. intros id. apply A. left. eauto.
    Qed.
    Lemma foot_vidsv n v : (forall x, indexed_under n x -> R x) -> foot (fun _ => True) (p_vertex_ids_with_property_value H n v).
    Proof.
      intros A. cbn [p_vertex_ids_with_property_value foot]. intros ix. destruct (mem n ix); [|exact I].
      apply foot_bind with (Q := fun _ => True).
      - apply foot_any. intros d d' K. unfold vvalues_for_value. do 2 f_equal. apply r_vvalues with (n := n); auto.
        + intros id. apply A. right. left. eauto.
        + exists (hb H v). reflexivity.
      - intros l _. apply foot_map, foot_existing. intros id. apply A. left. eauto.
    Qed.
    Lemma foot_eids n : (forall x, indexed_under n x -> R x) -> foot (fun _ => True) (p_edges_with_property H n).
    Proof.
      intros A. cbn [p_edges_with_property foot]. intros ix. destruct (mem n ix); [|exact I].
      apply foot_any. intros d d' K. unfold evalues_for_name. do 3 f_equal. apply r_evalues with (n := n); auto.
      + intros e. apply A. right. right. eauto.
      + exists []. rewrite prefix_ident. now rewrite app_nil_r.
    Qed.
    Lemma foot_eidsv n v : (forall x, indexed_under n x -> R x) -> foot (fun _ => True) (p_edges_with_property_value H n v).
    Proof.
      intros A. cbn [p_edges_with_property_value foot]. intros ix. destruct (mem n ix); [|exact I].
      apply foot_any. intros d d' K. unfold evalues_for_value. do 3 f_equal. apply r_evalues with (n := n); auto.
      + intros e. apply A. right. right. eauto.
      + exists (hb H v). reflexivity.
    Qed.
    Lemma foot_indexed {A} (p : prog (option (iter A))) : foot (fun _ => True) p -> foot (fun _ => True) (p_indexed_or_err p).
    Proof.
      intros F. apply foot_bind with (Q := fun _ => True); [exact F|]. intros [it|] _; cbn; [|exact I]. now destruct (collect it).
    Qed.

    Lemma foot_specific_edges es : (forall e, In e es -> R (AnEdge e)) ->
      foot (fun it => forall e, In (Ok e) it -> In e es) (p_specific_edges H es).
    Proof.
      induction es as [|e r IH]; intros A; cbn [p_specific_edges].
      - cbn. auto.
      - apply foot_bind with (Q := fun o => True).
        { apply foot_any. intros d d' K. f_equal. apply r_edge_contains; auto. apply A. now left. }
        intros b _. apply foot_bind with (Q := fun it => forall e, In (Ok e) it -> In e r); [apply IH; intros; apply A; now right|].
        intros rest I0. cbn. intros x Hx. destruct b; [|right; auto]. destruct Hx as [Hx|Hx]; [inversion Hx; now left|right; auto].
    Qed.

    Definition anchor (dir : direction) (e : edge) : uuid := match dir with Outbound => eout e | Inbound => ein e end.

    Lemma take_while_In {A} (f : A -> bool) l x : In x (take_while f l) -> In x l /\ f x = true.
    Proof. apply take_while_incl. Qed.

    Lemma foot_pipe_vertices dir limit t vs : (forall e v, In v vs -> anchor dir e = vid v -> R (AnEdge e)) ->
      forall es, foot (fun l => forall e, In e l -> In e es \/ exists v, In v vs /\ anchor dir e = vid v) (p_pipe_vertices H dir limit t vs es).
    Proof.
      induction vs as [|v r IH]; intros A es; cbn [p_pipe_vertices].
      - cbn. auto.
      - set (lower := Edge (vid v) (match t with Some t' => t' | None => empty_ident end) nil_uuid).
        set (tw := take_while (ok_or_true (fun e => eqb (eout e) (vid v)))).
        set (fin := fun it : iter edge => match dir with Inbound => map (omapo reversed) (filter (t_matches et t) it) | Outbound => filter (t_matches et t) it end).
        assert (forall it, foot (fun l => forall e, In e l -> In e es \/ exists v0, In v0 (v :: r) /\ anchor dir e = vid v0)
          (let! n := PRet (checked_sub limit (lenN es)) in
           let! new := PRet (collect (takeN n (fin (tw it)))) in
           if (limit <=? lenN (es ++ new))%N then PRet (Ok (es ++ new)) else p_pipe_vertices H dir limit t r (es ++ new))) as G.
        { intros it. apply foot_then with (Q := fun _ => True); [auto|]. intros n _.
          apply foot_then with (Q := fun new => forall e, In e new -> anchor dir e = vid v).
          { intros new E e He. apply (collect_In _ _ E) in He.
            assert (In (Ok e) (fin (tw it))) as He2 by (clear - He; revert He; generalize (fin (tw it)); intros l He; eapply takeN_In; eauto).
            unfold fin, tw in He2. destruct dir; cbn [anchor].
            - apply filter_In in He2 as [He2 _]. apply take_while_In in He2 as [_ He2]. cbn in He2. now apply eqb_eq in He2.
            - apply in_map_iff in He2 as (x & Ex & He2). destruct x as [f| |]; try discriminate. cbn in Ex. inversion Ex; subst e.
              apply filter_In in He2 as [He2 _]. apply take_while_In in He2 as [_ He2]. cbn in He2. now apply eqb_eq in He2. }
          intros new Hn. destruct (limit <=? _)%N.
          - cbn. intros e He. apply in_app_or in He as [He|He]; [now left|right]. exists v. split; [now left|auto].
          - eapply foot_imp; [apply IH; intros e v0 Hv; apply A; now right|]. intros l Hl e He.
            destruct (Hl e He) as [H1|(v0 & H1 & H2)]; [|right; exists v0; split; [now right|exact H2]].
            apply in_app_or in H1 as [H1|H1]; [now left|right]. exists v. split; [now left|auto]. }
        assert (forall c, c = match dir with Outbound => CFE | Inbound => CFR end ->
          foot (fun l => forall e, In e l -> In e es \/ exists v0, In v0 (v :: r) /\ anchor dir e = vid v0)
            (let! it := rd (fun d => Ok (edges_from H (cf_of d c) lower)) in
             let! n := PRet (checked_sub limit (lenN es)) in
             let! new := PRet (collect (takeN n (fin (tw it)))) in
             if (limit <=? lenN (es ++ new))%N then PRet (Ok (es ++ new)) else p_pipe_vertices H dir limit t r (es ++ new))) as F.
        { intros c Ec. refine (@foot_rd _ _ _ _ _ (fun d => tw (edges_from H (cf_of d c) lower))
            (fun it => let! n := PRet (checked_sub limit (lenN es)) in
             let! new := PRet (collect (takeN n (fin it))) in
             if (limit <=? lenN (es ++ new))%N then PRet (Ok (es ++ new)) else p_pipe_vertices H dir limit t r (es ++ new)) _ _ _ _).
          - intros d. reflexivity.
          - intros d d' K1 K2 K. unfold tw. apply (@root_same R d d' K c (vid v) lower K1 K2).
            + subst c. destruct dir; auto.
            + reflexivity.
            + apply rooted; [subst c; destruct dir; auto|]. intros e Ee. apply (A e v); [now left|]. subst c. destruct dir; exact Ee.
          - intros d. apply G. }
        destruct dir; [exact (F CFE eq_refl)|exact (F CFR eq_refl)].
    Qed.

    Lemma foot_pipe_edges dir limit t es : (forall e, In e es -> R (AVertex (anchor dir e))) ->
      foot (fun l => forall v, In v l -> exists e, In e es /\ vid v = anchor dir e) (p_pipe_edges H dir limit t es).
    Proof.
      intros A. unfold p_pipe_edges. change (match dir with Outbound => eout | Inbound => ein end) with (fun e => match dir with Outbound => eout | Inbound => ein end e).
      apply foot_bind with (Q := ids_in (fun id => In id (map (match dir with Outbound => eout | Inbound => ein end) es))).
      - apply foot_specific_vertices. intros id Hid. apply in_map_iff in Hid as (e & <- & He). specialize (A e He). destruct dir; exact A.
      - intros it Hit. cbn. destruct (collect (takeN limit (filter (t_matches vt t) it))) as [l| |] eqn:E; auto.
        intros v Hv. apply (collect_In _ _ E), takeN_In, filter_In in Hv as [Hv _]. apply Hit, in_map_iff in Hv as (e & <- & He).
        exists e. split; [exact He|]. now destruct dir.
    Qed.

    Definition names_in (name : option ident) (l : list nprop) : Prop := forall p, In p l -> named name (np_name p).

    Lemma foot_props_of_vertices name vs : (forall v n, In v vs -> named name n -> R (AVProp (vid v) n)) ->
      foot (fun l => forall x, In x l -> In (vp_vertex x) vs /\ names_in name (vp_props x)) (p_props_of_vertices H dec name vs).
    Proof.
      induction vs as [|v r IH]; intros A; cbn [p_props_of_vertices].
      - cbn. easy.
      - apply foot_bind with (Q := names_in name).
        { destruct name as [n|].
          - apply foot_bind with (Q := fun _ => True).
            + apply foot_any. intros d d' K. apply r_vprop_get; auto. apply A; [now left|now right].
            + intros o _. cbn. intros p Hp. destruct o; [destruct Hp as [<-|[]]; now right|destruct Hp].
          - apply foot_bind with (Q := fun _ => True).
            + apply foot_any. intros d d' K. rewrite (@r_vprops d d'); auto. intros n. apply A; [now left|now left].
            + intros it _. apply foot_then with (Q := fun _ => True); [auto|]. intros l _. cbn. intros p _. now left. }
        intros props Hp. apply foot_bind with (Q := fun l => forall x, In x l -> In (vp_vertex x) r /\ names_in name (vp_props x)).
        { apply IH. intros v0 n Hv. apply A. now right. }
        intros rest Hr. cbn. intros x Hx. destruct props as [|p ps].
        + destruct (Hr x Hx). auto.
        + destruct Hx as [<-|Hx]; [cbn; auto|]. destruct (Hr x Hx). auto.
    Qed.
    Lemma foot_props_of_edges name es : (forall e n, In e es -> named name n -> R (AnEProp e n)) ->
      foot (fun l => forall x, In x l -> In (ep_edge x) es /\ names_in name (ep_props x)) (p_props_of_edges H dec name es).
    Proof.
      induction es as [|v r IH]; intros A; cbn [p_props_of_edges].
      - cbn. easy.
      - apply foot_bind with (Q := names_in name).
        { destruct name as [n|].
          - apply foot_bind with (Q := fun _ => True).
            + apply foot_any. intros d d' K. apply r_eprop_get; auto. apply A; [now left|now right].
            + intros o _. cbn. intros p Hp. destruct o; [destruct Hp as [<-|[]]; now right|destruct Hp].
          - apply foot_bind with (Q := fun _ => True).
            + apply foot_any. intros d d' K. rewrite (@r_eprops d d'); auto. intros n. apply A; [now left|now left].
            + intros it _. apply foot_then with (Q := fun _ => True); [auto|]. intros l _. cbn. intros p _. now left. }
        intros props Hp. apply foot_bind with (Q := fun l => forall x, In x l -> In (ep_edge x) r /\ names_in name (ep_props x)).
        { apply IH. intros v0 n Hv. apply A. now right. }
        intros rest Hr. cbn. intros x Hx. destruct props as [|p ps].
        + destruct (Hr x Hx). auto.
        + destruct Hx as [<-|Hx]; [cbn; auto|]. destruct (Hr x Hx). auto.
    Qed.

    (** What a value consists of. *)
    Definition denotes (v : outv) (x : part) : Prop :=
      match v with
      | Vertices l => exists v, In v l /\ x = AVertex (vid v)
      | Edges l => exists e, In e l /\ x = AnEdge e
      | Count _ => False
      | VertexProperties l => exists y p, In y l /\ In p (vp_props y) /\ x = AVProp (vid (vp_vertex y)) (np_name p)
      | EdgeProperties l => exists y p, In y l /\ In p (ep_props y) /\ x = AnEProp (ep_edge y) (np_name p)
      end.
    Definition tops (P : part -> Prop) (out : list outv) : Prop :=
      match out with v :: _ => forall x, denotes v x -> P x | [] => True end.

    Lemma foot_popped {B} (P : part -> Prop) (Q : B -> Prop) (p : prog (list outv)) f : foot (tops P) p ->
      (forall v out, (forall x, denotes v x -> P x) -> foot Q (f v out)) ->
      foot Q (let! out1 := p in let! (v, out2) := PRet (pop out1) in f v out2).
    Proof.
      intros F G. apply foot_bind with (Q := tops P); [exact F|]. intros [|v out] T; cbn; [exact I|]. now apply G.
    Qed.

    Lemma foot_push {A} (P : part -> Prop) (x : outcome (list A)) (f : list A -> outv) out :
      (forall l, x = Ok l -> forall y, denotes (f l) y -> P y) -> foot (tops P) (let! l := PRet x in PRet (Ok (f l :: out))).
    Proof. intros G. destruct x; cbn; auto. now apply G. Qed.

    Lemma foot_query q : (forall x, looks_at q x -> R x) -> forall out, foot (tops (yields q)) (p_query H dec q out).
    Proof.
      induction q as [|limit t start|ids|n|n v| |es|n|n v|q IH dir limit t|q IH name|q IH n ex|q IH n v ex|q IH|q IH]; intros A out; cbn [p_query].
      - apply foot_bind with (Q := fun _ => True).
        + apply foot_any. intros d d' K. unfold vertices_from. rewrite (@r_vertices d d'); auto. intros id. apply A. cbn. eauto.
        + intros it _. apply foot_push. intros l _ y (v & _ & ->). cbn. eauto.
      - apply foot_bind with (Q := fun _ => True).
        + assert (forall id, foot (fun _ => True) (p_range_vertices H id)) as G; [|destruct start; apply G].
          intros id. apply foot_any. intros d d' K. unfold vertices_from. rewrite (@r_vertices d d'); auto. intros i. apply A. cbn. eauto.
        + intros it _. apply foot_push. intros l _ y (v & _ & ->). cbn. eauto.
      - apply foot_bind with (Q := ids_in (fun id => In id ids)).
        + apply foot_specific_vertices. intros id Hid. apply A. cbn. eauto.
        + intros it Hit. apply foot_push. intros l E y (v & Hv & ->). cbn. exists (vid v). split; [|reflexivity].
          apply Hit. eapply collect_In; eauto.
      - apply foot_bind with (Q := fun _ => True); [now apply foot_indexed, foot_vids|].
        intros ids _. apply foot_bind with (Q := fun _ => True).
        + eapply foot_imp; [apply foot_specific_vertices|auto]. intros id _. apply A. cbn. left. eauto.
        + intros it _. apply foot_push. intros l _ y (v & _ & ->). cbn. eauto.
      - apply foot_bind with (Q := fun _ => True); [now apply foot_indexed, foot_vidsv|].
        intros ids _. apply foot_bind with (Q := fun _ => True).
        + eapply foot_imp; [apply foot_specific_vertices|auto]. intros id _. apply A. cbn. left. eauto.
        + intros it _. apply foot_push. intros l _ y (v' & _ & ->). cbn. eauto.
      - apply foot_bind with (Q := fun _ => True).
        + apply foot_any. intros d d' K. unfold edges_all. rewrite (@r_edges d d'); auto. intros e. apply A. cbn. eauto.
        + intros it _. apply foot_push. intros l _ y (v & _ & ->). cbn. eauto.
      - apply foot_bind with (Q := fun it => forall e, In (Ok e) it -> In e es).
        + apply foot_specific_edges. intros e He. apply A. cbn. eauto.
        + intros it Hit. apply foot_push. intros l E y (v & Hv & ->). cbn. exists v. split; [|reflexivity].
          apply Hit. eapply collect_In; eauto.
      - apply foot_bind with (Q := fun _ => True); [apply foot_indexed, foot_eids; intros x Hx; apply A; now left|].
        intros l _. cbn. intros y (e & _ & ->). eauto.
      - apply foot_bind with (Q := fun _ => True); [apply foot_indexed, foot_eidsv; intros x Hx; apply A; now left|].
        intros l _. cbn. intros y (e & _ & ->). eauto.
      - apply foot_popped with (P := yields q); [apply IH; intros x Hx; apply A; now left|]. intros v out2 D.
        apply foot_bind with (Q := fun value => forall x, denotes value x -> yields (QPipe q dir limit t) x); [|now cbn].
        destruct v as [vs|es| | |]; try exact I; unfold pmap.
        + eapply foot_bind; [apply foot_pipe_vertices|].
          * intros e v Hv Ea. apply A. right. right. exists e. split; [|reflexivity]. unfold anchor in Ea. rewrite Ea. apply D. cbn. eauto.
          * cbv beta. intros l Hl. cbn. intros x (e & He & ->). destruct (Hl e He) as [[]|(v & Hv & Ea)]. right. exists e. split; [|reflexivity].
            unfold anchor in Ea. rewrite Ea. apply D. cbn. eauto.
        + eapply foot_bind; [apply foot_pipe_edges|].
          * intros e He. apply A. right. left. exists e. split; [|reflexivity]. apply D. cbn. eauto.
          * cbv beta. intros l Hl. cbn. intros x (v & Hv & ->). destruct (Hl v Hv) as (e & He & Ea). left. exists e. split; [apply D; cbn; eauto|].
            rewrite Ea. reflexivity.
      - apply foot_popped with (P := yields q); [apply IH; intros x Hx; apply A; now left|]. intros v out2 D.
        apply foot_bind with (Q := fun value => forall x, denotes value x -> yields (QPipeProperty q name) x); [|now cbn].
        destruct v as [vs|es| | |]; try exact I; unfold pmap.
        + eapply foot_bind; [apply foot_props_of_vertices|].
          * intros v n Hv Hn. apply A. right. left. exists (vid v), n. conj; auto. apply D. cbn. eauto.
          * cbv beta. intros l Hl. cbn. intros x (y & p & Hy & Hp & ->). destruct (Hl y Hy) as [H1 H2]. left. exists (vid (vp_vertex y)), (np_name p). conj; auto.
            apply D. cbn. eauto.
        + eapply foot_bind; [apply foot_props_of_edges|].
          * intros e n He Hn. apply A. right. right. exists e, n. conj; auto. apply D. cbn. eauto.
          * cbv beta. intros l Hl. cbn. intros x (y & p & Hy & Hp & ->). destruct (Hl y Hy) as [H1 H2]. right. exists (ep_edge y), (np_name p). conj; auto.
            apply D. cbn. eauto.
      - apply foot_popped with (P := yields q); [apply IH; intros x Hx; apply A; now left|]. intros v out2 D.
        apply foot_bind with (Q := fun value => forall x, denotes value x -> yields q x); [|now cbn].
        destruct v as [vs|es| | |]; try exact I.
        + apply foot_bind with (Q := fun _ => True); [apply foot_indexed, foot_vids; intros x Hx; apply A; now right|].
          intros l _. cbn. intros x (v & Hv & ->). apply filter_In in Hv as [Hv _]. apply D. cbn. eauto.
        + apply foot_bind with (Q := fun _ => True); [apply foot_indexed, foot_eids; intros x Hx; apply A; now right|].
          intros l _. cbn. intros x (v & Hv & ->). apply filter_In in Hv as [Hv _]. apply D. cbn. eauto.
      - apply foot_popped with (P := yields q); [apply IH; intros x Hx; apply A; now left|]. intros y out2 D.
        apply foot_bind with (Q := fun value => forall x, denotes value x -> yields q x); [|now cbn].
        destruct y as [vs|es| | |]; try exact I.
        + apply foot_bind with (Q := fun _ => True); [apply foot_indexed, foot_vidsv; intros x Hx; apply A; now right|].
          intros l _. cbn. intros x (y & Hv & ->). apply filter_In in Hv as [Hv _]. apply D. cbn. eauto.
        + apply foot_bind with (Q := fun _ => True); [apply foot_indexed, foot_eidsv; intros x Hx; apply A; now right|].
          intros l _. cbn. intros x (y & Hv & ->). apply filter_In in Hv as [Hv _]. apply D. cbn. eauto.
      - apply foot_popped with (P := yields q); [now apply IH|]. intros v out2 D. cbn. exact D.
      - assert (foot (tops (yields (QCount q))) (let! out1 := p_query H dec q out in
                 let! (piped, out2) := PRet (pop out1) in
                 let! n := match piped with
                           | Vertices l => PRet (Ok (lenN l))
                           | Edges l => PRet (Ok (lenN l))
                           | VertexProperties l => PRet (Ok (lenN l))
                           | EdgeProperties l => PRet (Ok (lenN l))
                           | Count _ => PRet (Err OperationOnQuery)
                           end in PRet (Ok (Count n :: re_export q piped out2)))) as G.
        { apply foot_popped with (P := yields q); [now apply IH|]. intros v out2 D. now destruct v. }
        destruct q; try exact G.
        + apply foot_bind with (Q := fun _ => True); [|now cbn].
          apply foot_any. intros d d' K. unfold vertices_from. rewrite (@r_vertices d d'); auto. intros id. apply A. cbn. eauto.
        + apply foot_bind with (Q := fun _ => True); [|now cbn].
          apply foot_any. intros d d' K. unfold edges_all. rewrite (@r_edges d d'); auto. intros e. apply A. cbn. eauto.
    Qed.

    (** *** Batch builders *)

    Lemma foot_vprop_delete ix id n : R (AVProp id n) -> W (AVProp id n) -> foot (within W) (p_vprop_delete H dec ix id n).
    Proof.
      intros Rx Wx. unfold p_vprop_delete. apply foot_bind with (Q := within W).
      - destruct (mem n ix); [|apply within_nil]. apply foot_bind with (Q := fun _ => True).
        + apply foot_any. intros d d' K. now apply r_vprop_get.
        + intros [v|] _; cbn; [|apply within_nil]. eapply within_one; [exact Wx|]. right. cbn. eauto.
      - intros b Hb. cbn. apply within_app; [exact Hb|]. eapply within_one; [exact Wx|]. left. auto.
    Qed.
    Lemma foot_eprop_delete ix e n : R (AnEProp e n) -> W (AnEProp e n) -> foot (within W) (p_eprop_delete H dec ix e n).
    Proof.
      intros Rx Wx. unfold p_eprop_delete. apply foot_bind with (Q := within W).
      - destruct (mem n ix); [|apply within_nil]. apply foot_bind with (Q := fun _ => True).
        + apply foot_any. intros d d' K. now apply r_eprop_get.
        + intros [v|] _; cbn; [|apply within_nil]. eapply within_one; [exact Wx|]. right. cbn. eauto.
      - intros b Hb. cbn. apply within_app; [exact Hb|]. eapply within_one; [exact Wx|]. left. auto.
    Qed.
    Lemma foot_vprop_set ix id n v : R (AVProp id n) -> W (AVProp id n) -> foot (within W) (p_vprop_set H enc dec ix id n v).
    Proof.
      intros Rx Wx. unfold p_vprop_set. apply foot_bind with (Q := within W).
      - destruct (mem n ix); [now apply foot_vprop_delete|apply within_nil].
      - intros b Hb. cbn. apply within_app; [exact Hb|]. apply (@within_app [_]).
        + eapply within_one; [exact Wx|]. left. auto.
        + destruct (mem n ix); [|apply within_nil]. eapply within_one; [exact Wx|]. right. cbn. eauto.
    Qed.
    Lemma foot_eprop_set ix e n v : R (AnEProp e n) -> W (AnEProp e n) -> foot (within W) (p_eprop_set H enc dec ix e n v).
    Proof.
      intros Rx Wx. unfold p_eprop_set. apply foot_bind with (Q := within W).
      - destruct (mem n ix); [now apply foot_eprop_delete|apply within_nil].
      - intros b Hb. cbn. apply within_app; [exact Hb|]. apply (@within_app [_]).
        + eapply within_one; [exact Wx|]. left. auto.
        + destruct (mem n ix); [|apply within_nil]. eapply within_one; [exact Wx|]. right. cbn. eauto.
    Qed.
    Lemma within_edge (b : batch) e : W (AnEdge e) ->
      (forall w, In w b -> wop_at w = (CFE, edge_key H e) \/ wop_at w = (CFR, edge_key H (reversed e))) -> within W b.
    Proof. intros Wx A w Hw. exists (AnEdge e). split; [exact Wx|]. destruct (A w Hw) as [-> | ->]; cbn; auto. Qed.
    Lemma foot_edge_set e : R (AnEdge e) -> W (AnEdge e) -> foot (within W) (p_edge_set H e).
    Proof.
      intros Rx Wx. apply foot_rd0.
      - intros d d' K. unfold edge_set. now rewrite (@r_edge_contains d d').
      - intros d b E. inversion E; subst. apply within_edge with (e := e); [exact Wx|]. intros w Hw. unfold edge_set in Hw.
        destruct (edge_contains H d e); cbn in Hw; repeat destruct Hw as [<-|Hw]; cbn; auto; destruct Hw.
    Qed.
    Lemma foot_edge_delete ix e : (forall n, R (AnEProp e n)) -> W (AnEdge e) -> (forall n, W (AnEProp e n)) -> foot (within W) (p_edge_delete H dec ix e).
    Proof.
      intros Rx W1 W2. unfold p_edge_delete.
      apply foot_bind with (Q := fun l => forall it, In (Ok it) l -> fst (fst it) = e).
      - apply foot_rd0.
        + intros d d' K. f_equal. now apply r_eprops.
        + intros d l E. inversion E; subst. clear E. intros it Hit. unfold eprops_for_owner in Hit. apply in_map_iff in Hit as (kv & E & _).
          unfold dec_eprop, dassert in E.
          destruct (read_uuid (fst kv)) as [[a r]| |]; try discriminate; cbn [obind] in E. destruct (eqb a (eout e)) eqn:E1; try discriminate.
          destruct (read_identifier r) as [[t r2]| |]; try discriminate; cbn [obind] in E. destruct (eqb t (et e)) eqn:E2; try discriminate.
          destruct (read_uuid r2) as [[c r3]| |]; try discriminate; cbn [obind] in E. destruct (eqb c (ein e)) eqn:E3; try discriminate.
          destruct (read_name r3) as [n| |]; try discriminate; cbn [obind] in E. destruct (from_slice dec (snd kv)); try discriminate. cbn [obind] in E.
          inversion E; subst. cbn. apply eqb_eq in E1, E2, E3. subst. now destruct e.
      - intros l Hl. apply foot_bind with (Q := within W).
        + apply foot_each. intros it Hit. rewrite (Hl it Hit). apply foot_eprop_delete; auto.
        + intros ps Hp. cbn. apply (@within_app [_; _]); [|exact Hp]. apply within_edge with (e := e); [exact W1|]. intros w [<-|[<-|[]]]; cbn; auto.
    Qed.
    Lemma foot_vertex_delete ix id : (forall x, goes_with (AVertex id) x -> R x /\ W x) -> foot (within W) (p_vertex_delete H dec ix id).
    Proof.
      intros A. unfold p_vertex_delete.
      assert (forall n, R (AVProp id n) /\ W (AVProp id n)) as A1 by (intros n; apply A; right; left; eauto).
      assert (forall e, touches e id -> R (AnEdge e) /\ W (AnEdge e)) as A2 by (intros e T; apply A; right; right; exists e; auto).
      assert (forall e n, touches e id -> R (AnEProp e n) /\ W (AnEProp e n)) as A3 by (intros e n T; apply A; right; right; exists e; split; [exact T|]; right; eauto).
      assert (forall l : list (outcome edge), foot (within W) (p_each l (fun e => if eqb (eout e) id then p_edge_delete H dec ix e else PRet Panic))) as Ed.
      { intros l. apply foot_each. intros e _. destruct (eqb (eout e) id) eqn:E; [|exact I]. apply eqb_eq in E.
        apply foot_edge_delete; intros; [apply A3|apply A2|apply A3]; now left. }
      apply foot_bind with (Q := fun l => forall it, In (Ok it) l -> fst (fst it) = id).
      { apply foot_rd0.
        - intros d d' K. f_equal. apply r_vprops; auto. intros n. apply A1.
        - intros d l E. inversion E; subst. clear E. intros it Hit. unfold vprops_for_owner in Hit. apply in_map_iff in Hit as (kv & E & _).
          unfold dec_vprop, dassert in E.
          destruct (read_uuid (fst kv)) as [[a r]| |]; try discriminate; cbn [obind] in E. destruct (eqb id a) eqn:E1; try discriminate.
          destruct (read_name r) as [n| |]; try discriminate; cbn [obind] in E. destruct (from_slice dec (snd kv)); try discriminate. cbn [obind] in E.
          inversion E; subst. cbn. apply eqb_eq in E1. auto. }
      intros l1 H1. apply foot_bind with (Q := within W).
      { apply foot_each. intros it Hit. rewrite (H1 it Hit). apply foot_vprop_delete; apply A1. }
      intros b1 B1. apply foot_bind with (Q := fun _ => True).
      { apply foot_any. intros d d' K. f_equal. apply (@r_root d d' CFE); auto. intros e Ee. apply A2. now left. }
      intros l2 _. apply foot_bind with (Q := within W); [apply Ed|]. intros b2 B2. apply foot_bind with (Q := fun _ => True).
      { apply foot_any. intros d d' K. f_equal. apply (@r_root d d' CFR); auto. intros e Ee. apply A2. now right. }
      intros l3 _. apply foot_bind with (Q := within W); [apply Ed|]. intros b3 B3. cbn.
      apply (@within_app [_]); [|auto using within_app]. apply (@within_one (AVertex id)); [apply A; now left|split; reflexivity].
    Qed.

    (** *** Writing methods *)

    Lemma foot_delete_vertices vs : (forall v x, In v vs -> goes_with (AVertex (vid v)) x -> R x /\ W x) -> foot (fun _ => True) (p_delete_vertices H dec vs).
    Proof. intros A. apply foot_guarded. intros ix. apply foot_over. intros v Hv. apply foot_vertex_delete. eauto. Qed.
    Lemma foot_delete_edges es : (forall e x, In e es -> goes_with (AnEdge e) x -> R x /\ W x) -> (forall e, In e es -> R (AVertex (eout e))) ->
      foot (fun _ => True) (p_delete_edges H dec es).
    Proof.
      intros A B. apply foot_guarded. intros ix. apply foot_over. intros e He. apply foot_bind with (Q := fun _ => True).
      - apply foot_any. intros d d' K. apply r_vertex_get; auto.
      - intros [t|] _; [|apply within_nil]. apply foot_edge_delete; intros; (eapply A; [exact He|]); cbn; eauto.
    Qed.
    Lemma foot_delete_vps ps : (forall p, In p ps -> R (AVProp (fst p) (snd p)) /\ W (AVProp (fst p) (snd p))) -> foot (fun _ => True) (p_delete_vertex_properties H dec ps).
    Proof. intros A. apply foot_guarded. intros ix. apply foot_over. intros p Hp. apply foot_vprop_delete; now apply A. Qed.
    Lemma foot_delete_eps ps : (forall p, In p ps -> R (AnEProp (fst p) (snd p)) /\ W (AnEProp (fst p) (snd p))) -> foot (fun _ => True) (p_delete_edge_properties H dec ps).
    Proof. intros A. apply foot_guarded. intros ix. apply foot_over. intros p Hp. apply foot_eprop_delete; now apply A. Qed.
    Lemma foot_set_vps ids n v : (forall id, In id ids -> R (AVProp id n) /\ W (AVProp id n)) -> foot (fun _ => True) (p_set_vertex_properties H enc dec ids n v).
    Proof. intros A. apply foot_guarded. intros ix. apply foot_over. intros id Hid. apply foot_vprop_set; now apply A. Qed.
    Lemma foot_set_eps es n v : (forall e, In e es -> R (AnEProp e n) /\ W (AnEProp e n)) -> foot (fun _ => True) (p_set_edge_properties H enc dec es n v).
    Proof. intros A. apply foot_guarded. intros ix. apply foot_over. intros e He. apply foot_eprop_set; now apply A. Qed.
    Lemma foot_bulk items : (forall it, In it items -> W (puts it) /\ ((forall id, puts it <> AVertex id) -> R (puts it))) -> foot (fun _ => True) (p_bulk_insert H enc dec items).
    Proof.
      intros A. apply foot_guarded. intros ix. apply foot_over. intros it Hit. destruct (A it Hit) as [A1 A2].
      destruct it as [v|e|id n v|e n v]; cbn [p_bulk_item puts] in *.
      - cbn. eapply within_one; [exact A1|]. cbn. auto.
      - apply foot_edge_set; auto. apply A2. discriminate.
      - apply foot_vprop_set; auto. apply A2. discriminate.
      - apply foot_eprop_set; auto. apply A2. discriminate.
    Qed.
    Lemma foot_create_vertex v : R (AVertex (vid v)) -> W (AVertex (vid v)) -> foot (fun _ => True) (p_create_vertex H v).
    Proof.
      intros A1 A2. apply foot_bind with (Q := fun _ => True).
      - apply foot_any. intros d d' K. f_equal. now apply r_vertex_exists.
      - intros [] _; cbn; auto. split; [|auto]. eapply within_one; [exact A2|]. cbn. auto.
    Qed.
    Lemma foot_create_edge e : R (AVertex (eout e)) -> R (AVertex (ein e)) -> R (AnEdge e) -> W (AnEdge e) -> foot (fun _ => True) (p_create_edge H e).
    Proof.
      intros A1 A2 A3 A4. apply foot_bind with (Q := fun _ => True).
      - apply foot_any. intros d d' K. f_equal. now apply r_vertex_exists.
      - intros [] _; [|exact I]. apply foot_bind with (Q := fun _ => True).
        + apply foot_any. intros d d' K. f_equal. now apply r_vertex_exists.
        + intros [] _; [|exact I]. cbn [negb]. apply foot_bind with (Q := within W); [now apply foot_edge_set|]. cbn. auto.
    Qed.
  End Programs.

  (** Every call but [index_property]. *)
  Theorem call_foot e o : (forall n, o <> OIndexProperty n) -> foot (depends o) (alters o) (fun _ => True) (prog_of H enc dec e o).
  Proof.
    intros NI. destruct o as [v|id t|x|q|q|q n v|items|n| |vs|es|ps|ps|ids n v|es n v]; cbn [prog_of].
    - apply foot_map. now apply foot_create_vertex.
    - apply foot_bind with (Q := fun _ => True); [now apply foot_create_vertex|]. intros [] _; cbn; auto.
    - apply foot_map. apply foot_create_edge; cbn; auto.
    - eapply foot_bind; [now apply foot_query|]. cbn. auto.
    - eapply foot_popped; [apply foot_query; cbn; auto|]. intros v out D. destruct v as [l|l|c|l|l].
      + apply foot_delete_vertices. intros v x Hv G. assert (alters (ODelete q) x) as C; [|split; [now left|exact C]].
        exists (AVertex (vid v)). split; [apply D; cbn; eauto|exact G].
      + apply foot_delete_edges.
        * intros v x Hv G. assert (alters (ODelete q) x) as C; [|split; [now left|exact C]].
          exists (AnEdge v). split; [apply D; cbn; eauto|exact G].
        * intros v Hv. right. right. exists v. split; [apply D; cbn; eauto|reflexivity].
      + exact I.
      + apply foot_delete_vps. intros p Hp. apply in_flat_map in Hp as (y & Hy & Hp). apply in_map_iff in Hp as (z & <- & Hz). cbn [fst snd].
        assert (alters (ODelete q) (AVProp (vid (vp_vertex y)) (np_name z))) as C; [|split; [now left|exact C]].
        eexists. split; [apply D; cbn; eauto|reflexivity].
      + apply foot_delete_eps. intros p Hp. apply in_flat_map in Hp as (y & Hy & Hp). apply in_map_iff in Hp as (z & <- & Hz). cbn [fst snd].
        assert (alters (ODelete q) (AnEProp (ep_edge y) (np_name z))) as C; [|split; [now left|exact C]].
        eexists. split; [apply D; cbn; eauto|reflexivity].
    - eapply foot_popped; [apply foot_query; cbn; auto|]. intros x out D. destruct x as [l|l|c|l|l]; try exact I.
      + apply foot_set_vps. intros id Hid. apply in_map_iff in Hid as (z & <- & Hz).
        assert (alters (OSetProperties q n v) (AVProp (vid z) n)) as C; [|split; [now left|exact C]].
        exists (AVertex (vid z)). split; [apply D; cbn; eauto|reflexivity].
      + apply foot_set_eps. intros z Hz.
        assert (alters (OSetProperties q n v) (AnEProp z n)) as C; [|split; [now left|exact C]].
        exists (AnEdge z). split; [apply D; cbn; eauto|reflexivity].
    - apply foot_bulk. intros it Hit. assert (alters (OBulkInsert items) (puts it)) as C by (exists it; auto). split; [exact C|]. intros _. now left.
    - now destruct (NI n).
    - cbn. now destruct (wok e).
    - apply foot_delete_vertices. intros v x Hv G. assert (alters (TDeleteVertices vs) x) as C by (exists v; auto). now split.
    - apply foot_delete_edges.
      + intros v x Hv G. assert (alters (TDeleteEdges es) x) as C by (exists v; auto). split; [now left|exact C].
      + intros v Hv. right. eauto.
    - apply foot_delete_vps. intros p Hp. assert (alters (TDeleteVertexProperties ps) (AVProp (fst p) (snd p))) as C by (exists p; auto). now split.
    - apply foot_delete_eps. intros p Hp. assert (alters (TDeleteEdgeProperties ps) (AnEProp (fst p) (snd p))) as C by (exists p; auto). now split.
    - apply foot_set_vps. intros id Hid. assert (alters (TSetVertexProperties ids n v) (AVProp id n)) as C by (exists id; auto). now split.
    - apply foot_set_eps. intros x Hx. assert (alters (TSetEdgeProperties es n v) (AnEProp x n)) as C by (exists x; auto). now split.
  Qed.
End Foot.
