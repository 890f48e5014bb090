(** * Insertions into RocksDB: bulk items, property updates, indexing. *)
From Verif Require Import Base OMap Json Types Util Db Rdb Spec QueryFacts SpecFacts JsonFacts UtilFacts MemFacts MemRefine
  KeyFacts RdbSpec RdbRep RdbWrite.

Set Implicit Arguments.

Lemma set_del {K V} {O : Ord K} (k : K) (v : V) (t : omap K V) : set k v (del k t) = set k v t.
Proof. apply omap_ext. intros k'. rewrite !get_set, get_del. now destruct (eqb k' k). Qed.

Section Put.
  Variable H : list byte -> N.
  Variable enc : json -> bytes.
  Variable dec : bytes -> option json.
  Notation rep := (rep H enc dec).
  Notation lossless := (lossless enc dec).
  Notation exact := (exact H).

  Definition up_v (L : lstate) (id : uuid) (t : ident) : lstate :=
    LState (set id t (l_v L)) (l_e L) (l_r L) (l_vp L) (l_ep L) (l_vv L) (l_ev L) (l_m L).
  Definition up_e (L : lstate) (e : edge) : lstate :=
    LState (l_v L) (add e (l_e L)) (add (reversed e) (l_r L)) (l_vp L) (l_ep L) (l_vv L) (l_ev L) (l_m L).
  Definition up_vp (L : lstate) (k : uuid * ident) (x : json) : lstate :=
    LState (l_v L) (l_e L) (l_r L) (set k x (l_vp L)) (l_ep L) (l_vv L) (l_ev L) (l_m L).
  Definition up_ep (L : lstate) (k : edge * ident) (x : json) : lstate :=
    LState (l_v L) (l_e L) (l_r L) (l_vp L) (set k x (l_ep L)) (l_vv L) (l_ev L) (l_m L).
  Definition rm_vp (L : lstate) (k : uuid * ident) : lstate :=
    LState (l_v L) (l_e L) (l_r L) (del k (l_vp L)) (l_ep L) (l_vv L) (l_ev L) (l_m L).
  Definition rm_ep (L : lstate) (k : edge * ident) : lstate :=
    LState (l_v L) (l_e L) (l_r L) (l_vp L) (del k (l_ep L)) (l_vv L) (l_ev L) (l_m L).
  Definition up_vv (L : lstate) (t : oset (ident * (h8 * uuid))) : lstate :=
    LState (l_v L) (l_e L) (l_r L) (l_vp L) (l_ep L) t (l_ev L) (l_m L).
  Definition up_ev (L : lstate) (t : oset (ident * (h8 * edge))) : lstate :=
    LState (l_v L) (l_e L) (l_r L) (l_vp L) (l_ep L) (l_vv L) t (l_m L).
  Definition up_m (L : lstate) (l : list ident) : lstate :=
    LState (l_v L) (l_e L) (l_r L) (l_vp L) (l_ep L) (l_vv L) (l_ev L) (Some l).

  Lemma rep_put_v d L id t : rep d L -> rep (apply_wop d (Put CFV (vertex_key H id) (build H [CIdent t]))) (up_v L id t).
  Proof.
    rewrite prefix_ident. intros []. split; cbn; try assumption. apply rep_set; [apply vertex_key_inj|assumption].
  Qed.
  Lemma rep_put_vp d L id n x : lossless x -> rep d L -> rep (apply_wop d (Put CFVP (vprop_key H id n) (enc x))) (up_vp L (id, n) x).
  Proof.
    intros Hx []. split; cbn; try assumption.
    - apply (rep_set (kf := vpk H)) with (k := (id, n)); [apply vpk_inj|assumption].
    - intros k v. rewrite get_set. destruct (eqb k (id, n)); [|apply rp_vgood]. intros E. inversion E. now subst.
  Qed.
  Lemma rep_put_ep d L e n x : lossless x -> rep d L -> rep (apply_wop d (Put CFEP (eprop_key H e n) (enc x))) (up_ep L (e, n) x).
  Proof.
    intros Hx []. split; cbn; try assumption.
    - apply (rep_set (kf := epk H)) with (k := (e, n)); [apply epk_inj|assumption].
    - intros k v. rewrite get_set. destruct (eqb k (e, n)); [|apply rp_egood]. intros E. inversion E. now subst.
  Qed.
  Lemma rep_del_vp d L id n : rep d L -> rep (apply_wop d (Del CFVP (vprop_key H id n))) (rm_vp L (id, n)).
  Proof.
    intros []. split; cbn; try assumption.
    - apply (rep_del (kf := vpk H)) with (k := (id, n)); [apply vpk_inj|assumption].
    - intros k v. rewrite get_del. destruct (eqb k (id, n)); [discriminate|apply rp_vgood].
  Qed.
  Lemma rep_del_ep d L e n : rep d L -> rep (apply_wop d (Del CFEP (eprop_key H e n))) (rm_ep L (e, n)).
  Proof.
    intros []. split; cbn; try assumption.
    - apply (rep_del (kf := epk H)) with (k := (e, n)); [apply epk_inj|assumption].
    - intros k v. rewrite get_del. destruct (eqb k (e, n)); [discriminate|apply rp_egood].
  Qed.
  Lemma rep_put_vv d L n x id : rep d L -> rep (apply_wop d (Put CFVV (vvalue_key H n x id) [])) (up_vv L (add (n, (hash8 H x, id)) (l_vv L))).
  Proof.
    intros []. split; cbn; try assumption. rewrite vvalue_key_vvk. change [] with (unitf tt).
    apply rep_set; [apply vvk_inj|assumption].
  Qed.
  Lemma rep_put_ev d L n x e : rep d L -> rep (apply_wop d (Put CFEV (evalue_key H n x e) [])) (up_ev L (add (n, (hash8 H x, e)) (l_ev L))).
  Proof.
    intros []. split; cbn; try assumption. rewrite evalue_key_evk. change [] with (unitf tt).
    apply rep_set; [apply evk_inj|assumption].
  Qed.
  Lemma rep_del_vv d L n x id : rep d L -> rep (apply_wop d (Del CFVV (vvalue_key H n x id))) (up_vv L (del (n, (hash8 H x, id)) (l_vv L))).
  Proof.
    intros []. split; cbn; try assumption. rewrite vvalue_key_vvk. apply rep_del; [apply vvk_inj|assumption].
  Qed.
  Lemma rep_del_ev d L n x e : rep d L -> rep (apply_wop d (Del CFEV (evalue_key H n x e))) (up_ev L (del (n, (hash8 H x, e)) (l_ev L))).
  Proof.
    intros []. split; cbn; try assumption. rewrite evalue_key_evk. apply rep_del; [apply evk_inj|assumption].
  Qed.
  Lemma rep_put_m d L l : rep d L -> rep (apply_wop d (Put CFM meta_key (bin_idents l))) (up_m L l).
  Proof. intros []. split; cbn; try assumption. apply get_set_same. Qed.

  Lemma reversed_eqb e f : eqb (reversed e) f = eqb e (reversed f).
  Proof.
    destruct (eqb (reversed e) f) eqn:E, (eqb e (reversed f)) eqn:F; auto.
    - apply eqb_eq in E. subst. rewrite reversed_invol, eqb_refl in F. discriminate.
    - apply eqb_eq in F. subst. rewrite reversed_invol, eqb_refl in E. discriminate.
  Qed.

  Lemma rep_edge_set d0 d L e : rep d L -> rep (apply_batch (edge_set H d0 e) d) (up_e L e).
  Proof.
    intros R. assert (rep (apply_batch [Put CFE (edge_key H e) []; Put CFR (edge_key H (reversed e)) []] d) (up_e L e)) as P.
    { destruct R. split; cbn; try assumption.
      - apply (rep_set (vf := unitf)) with (v := tt); [apply edge_key_inj|assumption].
      - apply (rep_set (vf := unitf)) with (v := tt); [apply edge_key_inj|assumption].
      - intros f. rewrite !mem_add, rp_mirror, reversed_eqb. reflexivity. }
    unfold edge_set. destruct (edge_contains H d0 e); [|exact P]. cbn in P |- *. now rewrite !set_del.
  Qed.

  (** ** Items *)

  (** The effect of one bulk item; [L0] is the state read when building it. *)
  Definition l_item (ix : oset ident) (L0 L : lstate) (it : bulk_item) : lstate :=
    match it with
    | BVertex v => up_v L (vid v) (vt v)
    | BEdge e => up_e L e
    | BVProp id n x =>
      let vv := if mem n ix then
                  add (n, (hash8 H x, id))
                      (match get (id, n) (l_vp L0) with Some y => del (n, (hash8 H y, id)) (l_vv L) | None => l_vv L end)
                else l_vv L in
      up_vv (up_vp L (id, n) x) vv
    | BEProp e n x =>
      let ev := if mem n ix then
                  add (n, (hash8 H x, e))
                      (match get (e, n) (l_ep L0) with Some y => del (n, (hash8 H y, e)) (l_ev L) | None => l_ev L end)
                else l_ev L in
      up_ev (up_ep L (e, n) x) ev
    end.

  Definition good_item (it : bulk_item) : Prop :=
    match it with BVProp _ _ x | BEProp _ _ x => lossless x | _ => True end.

  Lemma set_set {K V} {O : Ord K} (k : K) (v : V) (t : omap K V) : set k v (del k t) = set k v t.
  Proof. apply set_del. Qed.

  Lemma rep_item s L0 d L it : rep (r_db s) L0 -> rep d L -> good_item it ->
    exists b, bulk_item_batch H enc dec s it = Ok b /\ rep (apply_batch b d) (l_item (r_indexed s) L0 L it).
  Proof.
    intros R0 R G. destruct it as [v|e|id n x|e n x]; cbn [bulk_item_batch l_item].
    - eexists. split; [reflexivity|]. now apply rep_put_v.
    - eexists. split; [reflexivity|]. now apply rep_edge_set.
    - cbn in G. unfold vprop_set, vprop_delete. destruct (mem n (r_indexed s)); cbn [obind].
      + rewrite (vprop_get_rep s R0). cbn [obind]. eexists. split; [reflexivity|].
        destruct (get (id, n) (l_vp L0)) as [y|]; cbn [app]; unfold apply_batch; cbn [fold_left].
        * eapply (rep_del_vv n y id), (rep_del_vp id n), (rep_put_vp id n G), (rep_put_vv n x id) in R.
          unfold up_vv, rm_vp, up_vp in *. cbn in R |- *. erewrite (set_del (id, n) x (l_vp L)) in R. exact R.
        * eapply (rep_del_vp id n), (rep_put_vp id n G), (rep_put_vv n x id) in R.
          unfold up_vv, rm_vp, up_vp in *. cbn in R |- *. erewrite (set_del (id, n) x (l_vp L)) in R. exact R.
      + eexists. split; [reflexivity|]. cbn [app]. unfold apply_batch; cbn [fold_left].
        eapply (rep_put_vp id n G) in R. exact R.
    - cbn in G. unfold eprop_set, eprop_delete. destruct (mem n (r_indexed s)); cbn [obind].
      + rewrite (eprop_get_rep s R0). cbn [obind]. eexists. split; [reflexivity|].
        destruct (get (e, n) (l_ep L0)) as [y|]; cbn [app]; unfold apply_batch; cbn [fold_left].
        * eapply (rep_del_ev n y e), (rep_del_ep e n), (rep_put_ep e n G), (rep_put_ev n x e) in R.
          unfold up_ev, rm_ep, up_ep in *. cbn in R |- *. erewrite (set_del (e, n) x (l_ep L)) in R. exact R.
        * eapply (rep_del_ep e n), (rep_put_ep e n G), (rep_put_ev n x e) in R.
          unfold up_ev, rm_ep, up_ep in *. cbn in R |- *. erewrite (set_del (e, n) x (l_ep L)) in R. exact R.
      + eexists. split; [reflexivity|]. cbn [app]. unfold apply_batch; cbn [fold_left].
        eapply (rep_put_ep e n G) in R. exact R.
  Qed.

  Lemma rep_items s L0 items : rep (r_db s) L0 -> Forall good_item items -> forall d L, rep d L ->
    exists b, over items (bulk_item_batch H enc dec s) = Ok b /\
              rep (apply_batch b d) (fold_left (l_item (r_indexed s) L0) items L).
  Proof.
    intros R0. unfold over. induction 1 as [|it items G Gs IH]; intros d L R; cbn [map for_each obind fold_left].
    - exists []. auto.
    - destruct (rep_item s it R0 R G) as (b & -> & R1). cbn [obind].
      destruct (IH _ _ R1) as (b' & -> & R2). cbn [obind]. exists (b ++ b'). split; [reflexivity|].
      now rewrite apply_batch_app.
  Qed.

  Lemma gabs_item ix L0 L it : gabs (l_item ix L0 L it) ix = r_bulk_item (gabs L ix) it.
  Proof. now destruct it. Qed.
  Lemma gabs_items ix L0 items : forall L, gabs (fold_left (l_item ix L0) items L) ix = r_bulk_insert (gabs L ix) items.
  Proof.
    unfold r_bulk_insert. induction items as [|it items IH]; intros L; cbn [fold_left]; [reflexivity|].
    rewrite IH, gabs_item. reflexivity.
  Qed.
  Lemma l_m_items ix L0 items : forall L, l_m (fold_left (l_item ix L0) items L) = l_m L.
  Proof. induction items as [|it items IH]; intros L; cbn [fold_left]; [reflexivity|]. rewrite IH. now destruct it. Qed.

  (** Items that give one property two different values leave stale index
      entries; [consistent] excludes them. *)
  Definition consistent (items : list bulk_item) : Prop :=
    (forall id n x y, In (BVProp id n x) items -> In (BVProp id n y) items -> x = y) /\
    (forall e n x y, In (BEProp e n x) items -> In (BEProp e n y) items -> x = y).

  Lemma exact_items ix L0 all : consistent all -> exact L0 ix -> forall items L,
    (forall it, In it items -> In it all) ->
    exact L ix ->
    (forall k, get k (l_vp L) = get k (l_vp L0) \/ exists x, get k (l_vp L) = Some x /\ In (BVProp (fst k) (snd k) x) all) ->
    (forall k, get k (l_ep L) = get k (l_ep L0) \/ exists x, get k (l_ep L) = Some x /\ In (BEProp (fst k) (snd k) x) all) ->
    exact (fold_left (l_item ix L0) items L) ix.
  Proof.
    intros [Cv Ce] X0. induction items as [|it items IH]; intros L Hin X Qv Qe; cbn [fold_left]; [assumption|].
    assert (In it all) as Hit by (apply Hin; now left).
    apply IH; [intros; apply Hin; now right| | |].
    - destruct it as [v|e|id n x|e n x]; cbn [l_item]; try exact X.
      + destruct X as [X1 X2]. split; [|exact X2]. intros n' h id'. cbn [up_vv up_vp l_vv l_vp].
        destruct (mem n ix) eqn:En.
        * rewrite get_set, mem_add, !eqb_pair.
          destruct (eqb id' id) eqn:Ei, (eqb n' n) eqn:Enn; cbn [andb orb];
            try (apply eqb_eq in Ei; subst id'); try (apply eqb_eq in Enn; subst n').
          -- rewrite andb_true_r. split.
             ++ intros Hm. split; [assumption|]. exists x. split; [reflexivity|].
                apply orb_true_iff in Hm as [Hm|Hm]; [now apply eqb_eq in Hm|].
                destruct (Qv (id, n)) as [Q|(y & Q & Iy)].
                ** rewrite <- Q in Hm. destruct (get (id, n) (l_vp L)) as [y|] eqn:Ey.
                   --- rewrite mem_del in Hm. apply andb_true_iff in Hm as [Hm1 Hm2]. apply X1 in Hm2 as (_ & z & Hz & ->).
                       rewrite Ey in Hz. inversion Hz; subst. rewrite eqb_refl in Hm1. discriminate.
                   --- apply X1 in Hm as (_ & z & Hz & _). congruence.
                ** cbn in Iy. assert (y = x) as -> by (eapply Cv; eauto).
                   assert (mem (n, (h, id)) (l_vv L) = true) as Hm'.
                   { destruct (get (id, n) (l_vp L0)) as [z|]; [|assumption]. rewrite mem_del in Hm. now apply andb_true_iff in Hm. }
                   apply X1 in Hm' as (_ & z & Hz & ->). congruence.
             ++ intros (_ & y & Hy & ->). inversion Hy; subst. now rewrite eqb_refl.
          -- rewrite <- X1. destruct (get (id, n) (l_vp L0)) as [y|]; [|reflexivity].
             rewrite mem_del, !eqb_pair, Enn. reflexivity.
          -- rewrite <- X1. rewrite andb_false_r. cbn [orb]. destruct (get (id, n) (l_vp L0)) as [y|]; [|reflexivity].
             rewrite mem_del, !eqb_pair, Ei, !andb_false_r. reflexivity.
          -- rewrite <- X1. destruct (get (id, n) (l_vp L0)) as [y|]; [|reflexivity].
             rewrite mem_del, !eqb_pair, Enn. reflexivity.
        * rewrite get_set, eqb_pair. destruct (eqb n' n) eqn:Enn.
          -- apply eqb_eq in Enn. subst. rewrite X1, En. split; intros [? _]; discriminate.
          -- rewrite andb_false_r. apply X1.
      + destruct X as [X1 X2]. split; [exact X1|]. intros n' h e'. cbn [up_ev up_ep l_ev l_ep].
        destruct (mem n ix) eqn:En.
        * rewrite get_set, mem_add, !eqb_pair.
          destruct (eqb e' e) eqn:Ei, (eqb n' n) eqn:Enn; cbn [andb orb];
            try (apply eqb_eq in Ei; subst e'); try (apply eqb_eq in Enn; subst n').
          -- rewrite andb_true_r. split.
             ++ intros Hm. split; [assumption|]. exists x. split; [reflexivity|].
                apply orb_true_iff in Hm as [Hm|Hm]; [now apply eqb_eq in Hm|].
                destruct (Qe (e, n)) as [Q|(y & Q & Iy)].
                ** rewrite <- Q in Hm. destruct (get (e, n) (l_ep L)) as [y|] eqn:Ey.
                   --- rewrite mem_del in Hm. apply andb_true_iff in Hm as [Hm1 Hm2]. apply X2 in Hm2 as (_ & z & Hz & ->).
                       rewrite Ey in Hz. inversion Hz; subst. rewrite eqb_refl in Hm1. discriminate.
                   --- apply X2 in Hm as (_ & z & Hz & _). congruence.
                ** cbn in Iy. assert (y = x) as -> by (eapply Ce; eauto).
                   assert (mem (n, (h, e)) (l_ev L) = true) as Hm'.
                   { destruct (get (e, n) (l_ep L0)) as [z|]; [|assumption]. rewrite mem_del in Hm. now apply andb_true_iff in Hm. }
                   apply X2 in Hm' as (_ & z & Hz & ->). congruence.
             ++ intros (_ & y & Hy & ->). inversion Hy; subst. now rewrite eqb_refl.
          -- rewrite <- X2. destruct (get (e, n) (l_ep L0)) as [y|]; [|reflexivity].
             rewrite mem_del, !eqb_pair, Enn. reflexivity.
          -- rewrite <- X2. rewrite andb_false_r. cbn [orb]. destruct (get (e, n) (l_ep L0)) as [y|]; [|reflexivity].
             rewrite mem_del, !eqb_pair, Ei, !andb_false_r. reflexivity.
          -- rewrite <- X2. destruct (get (e, n) (l_ep L0)) as [y|]; [|reflexivity].
             rewrite mem_del, !eqb_pair, Enn. reflexivity.
        * rewrite get_set, eqb_pair. destruct (eqb n' n) eqn:Enn.
          -- apply eqb_eq in Enn. subst. rewrite X2, En. split; intros [? _]; discriminate.
          -- rewrite andb_false_r. apply X2.
    - intros k. destruct it as [v|e|id n x|e n x]; cbn [l_item up_v up_e up_vv up_vp up_ev up_ep l_vp]; try apply Qv.
      rewrite get_set. destruct (eqb k (id, n)) eqn:E; [|apply Qv]. apply eqb_eq in E. subst. right. eauto.
    - intros k. destruct it as [v|e|id n x|e n x]; cbn [l_item up_v up_e up_vv up_vp up_ev up_ep l_ep]; try apply Qe.
      rewrite get_set. destruct (eqb k (e, n)) eqn:E; [|apply Qe]. apply eqb_eq in E. subst. right. eauto.
  Qed.

  Lemma exact_bulk ix L items : consistent items -> exact L ix -> exact (fold_left (l_item ix L) items L) ix.
  Proof. intros C X. eapply exact_items; eauto. Qed.

  (** ** Indexing a property *)

  Definition ix_v (L : lstate) (n : ident) (t : oset (ident * (h8 * uuid))) (id : uuid) : oset (ident * (h8 * uuid)) :=
    match get (id, n) (l_vp L) with Some x => add (n, (hash8 H x, id)) t | None => t end.
  Definition ix_e (L : lstate) (n : ident) (t : oset (ident * (h8 * edge))) (e : edge) : oset (ident * (h8 * edge)) :=
    match get (e, n) (l_ep L) with Some x => add (n, (hash8 H x, e)) t | None => t end.

  Lemma mem_ix_v L n ids : forall t k, mem k (fold_left (ix_v L n) ids t) = true <->
    mem k t = true \/ exists id x, In id ids /\ get (id, n) (l_vp L) = Some x /\ k = (n, (hash8 H x, id)).
  Proof.
    induction ids as [|id ids IH]; intros t k; cbn [fold_left].
    - split; [auto|]. intros [?|(id & x & [] & _)]. assumption.
    - rewrite IH. unfold ix_v. destruct (get (id, n) (l_vp L)) as [x|] eqn:E.
      + rewrite mem_add, orb_true_iff, eqb_eq. split.
        * intros [[->|Hm]|(i & y & Hi & Hg & ->)]; [right; exists id, x; cbn; auto|auto|right; exists i, y; cbn; auto].
        * intros [Hm|(i & y & [<-|Hi] & Hg & ->)]; [auto|left; left; congruence|right; eauto].
      + split.
        * intros [Hm|(i & y & Hi & Hg & ->)]; [auto|right; exists i, y; cbn; auto].
        * intros [Hm|(i & y & [<-|Hi] & Hg & ->)]; [auto|congruence|right; eauto].
  Qed.
  Lemma mem_ix_e L n ids : forall t k, mem k (fold_left (ix_e L n) ids t) = true <->
    mem k t = true \/ exists id x, In id ids /\ get (id, n) (l_ep L) = Some x /\ k = (n, (hash8 H x, id)).
  Proof.
    induction ids as [|id ids IH]; intros t k; cbn [fold_left].
    - split; [auto|]. intros [?|(id & x & [] & _)]. assumption.
    - rewrite IH. unfold ix_e. destruct (get (id, n) (l_ep L)) as [x|] eqn:E.
      + rewrite mem_add, orb_true_iff, eqb_eq. split.
        * intros [[->|Hm]|(i & y & Hi & Hg & ->)]; [right; exists id, x; cbn; auto|auto|right; exists i, y; cbn; auto].
        * intros [Hm|(i & y & [<-|Hi] & Hg & ->)]; [auto|left; left; congruence|right; eauto].
      + split.
        * intros [Hm|(i & y & Hi & Hg & ->)]; [auto|right; exists i, y; cbn; auto].
        * intros [Hm|(i & y & [<-|Hi] & Hg & ->)]; [auto|congruence|right; eauto].
  Qed.

  Definition l_index (L : lstate) (n : ident) (m : list ident) (ids : list uuid) (es : list edge) : lstate :=
    up_ev (up_vv (up_m L m) (fold_left (ix_v L n) ids (l_vv L))) (fold_left (ix_e L n) es (l_ev L)).

  (** Puts of index entries, starting from any represented state. *)
  Lemma rep_ix_v s L n (vs : list vertex) : rep (r_db s) L -> forall d Ld, rep d Ld ->
    exists b, for_each (map Ok vs) (fun v => let? o := vprop_get H dec (r_db s) (vid v) n in
                Ok (match o with Some x => [Put CFVV (vvalue_key H n x (vid v)) []] | None => [] end)) = Ok b /\
      rep (apply_batch b d) (up_vv Ld (fold_left (ix_v L n) (map vid vs) (l_vv Ld))).
  Proof.
    intros R. induction vs as [|v vs IH]; intros d Ld Rd; cbn [map for_each obind fold_left].
    - exists []. split; [reflexivity|]. now destruct Ld.
    - rewrite (vprop_get_rep s R). cbn [obind]. unfold ix_v at 2. destruct (get (vid v, n) (l_vp L)) as [x|].
      + destruct (IH _ _ (rep_put_vv n x (vid v) Rd)) as (b & -> & Rb). cbn [obind]. eexists. split; [reflexivity|]. exact Rb.
      + destruct (IH _ _ Rd) as (b & -> & Rb). cbn [obind]. eexists. split; [reflexivity|]. exact Rb.
  Qed.
  Lemma rep_ix_e s L n (es : list edge) : rep (r_db s) L -> forall d Ld, rep d Ld ->
    exists b, for_each (map Ok es) (fun e => let? o := eprop_get H dec (r_db s) e n in
                Ok (match o with Some x => [Put CFEV (evalue_key H n x e) []] | None => [] end)) = Ok b /\
      rep (apply_batch b d) (up_ev Ld (fold_left (ix_e L n) es (l_ev Ld))).
  Proof.
    intros R. induction es as [|e es IH]; intros d Ld Rd; cbn [map for_each obind fold_left].
    - exists []. split; [reflexivity|]. now destruct Ld.
    - rewrite (eprop_get_rep s R). cbn [obind]. unfold ix_e at 2. destruct (get (e, n) (l_ep L)) as [x|].
      + destruct (IH _ _ (rep_put_ev n x e Rd)) as (b & -> & Rb). cbn [obind]. eexists. split; [reflexivity|]. exact Rb.
      + destruct (IH _ _ Rd) as (b & -> & Rb). cbn [obind]. eexists. split; [reflexivity|]. exact Rb.
  Qed.

  Lemma exact_index L ix n m ids es : exact L ix -> mem n ix = false ->
    (forall id x, get (id, n) (l_vp L) = Some x -> In id ids) ->
    (forall e x, get (e, n) (l_ep L) = Some x -> In e es) ->
    exact (l_index L n m ids es) (add n ix).
  Proof.
    intros [X1 X2] Hn Hv He. split; intros n' h i; cbn [l_index up_ev up_vv up_m l_vv l_ev l_vp l_ep].
    - rewrite mem_ix_v, mem_add, X1. split.
      + intros [(Hm & Hx)|(id & x & Hid & Hg & E)].
        * rewrite Hm, orb_true_r. auto.
        * inversion E; subst. rewrite eqb_refl. eauto.
      + intros (Hm & x & Hx & ->). apply orb_true_iff in Hm as [Hm|Hm].
        * apply eqb_eq in Hm. subst. right. exists i, x. eauto.
        * left. eauto.
    - rewrite mem_ix_e, mem_add, X2. split.
      + intros [(Hm & Hx)|(id & x & Hid & Hg & E)].
        * rewrite Hm, orb_true_r. auto.
        * inversion E; subst. rewrite eqb_refl. eauto.
      + intros (Hm & x & Hx & ->). apply orb_true_iff in Hm as [Hm|Hm].
        * apply eqb_eq in Hm. subst. right. exists i, x. eauto.
        * left. eauto.
  Qed.
End Put.
