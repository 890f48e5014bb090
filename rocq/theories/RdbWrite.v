(** * Effects of RocksDB write batches on the logical state. *)
From Verif Require Import Base OMap Json Types Util Db Rdb Spec QueryFacts SpecFacts JsonFacts UtilFacts MemFacts MemRefine
  KeyFacts RdbSpec RdbRep.

Set Implicit Arguments.

(** ** Batches *)

Lemma cfid_eq_dec (a b : cfid) : {a = b} + {a <> b}.
Proof. decide equality. Qed.
Lemma wop_eq_dec (a b : wop) : {a = b} + {a <> b}.
Proof. decide equality; try apply cfid_eq_dec; apply (eq_dec (A := bytes)). Qed.

Lemma cf_of_set d c x c' : cf_of (cf_set d c x) c' = if cfid_eq_dec c c' then x else cf_of d c'.
Proof. destruct (cfid_eq_dec c c') as [->|N]; [now destruct c'|]. destruct c, c'; try reflexivity; now elim N. Qed.

Lemma apply_batch_app b b' d : apply_batch (b ++ b') d = apply_batch b' (apply_batch b d).
Proof. apply fold_left_app. Qed.

Lemma apply_dels b : forall d c k, (forall w, In w b -> exists c k, w = Del c k) ->
  (In (Del c k) b -> get k (cf_of (apply_batch b d) c) = None) /\
  (~ In (Del c k) b -> get k (cf_of (apply_batch b d) c) = get k (cf_of d c)).
Proof.
  induction b as [|w b IH]; intros d c k Hd; [cbn; tauto|].
  destruct (Hd w (or_introl eq_refl)) as (c1 & k1 & ->).
  destruct (IH (apply_wop d (Del c1 k1)) c k) as [I1 I2]; [intros; apply Hd; now right|].
  change (apply_batch (Del c1 k1 :: b) d) with (apply_batch b (apply_wop d (Del c1 k1))).
  destruct (in_dec wop_eq_dec (Del c k) b) as [Hin|Hni].
  - split; [auto|]. intros N. elim N. now right.
  - rewrite (I2 Hni). cbn [apply_wop]. rewrite cf_of_set. destruct (cfid_eq_dec c1 c) as [->|Nc].
    + rewrite get_del. destruct (eqb k k1) eqn:E.
      * apply eqb_eq in E. subst. split; [reflexivity|]. intros N. elim N. now left.
      * apply eqb_neq in E. split; [|reflexivity]. intros [Hw|Hw]; [inversion Hw; subst; contradiction|contradiction].
    + split; [|reflexivity]. intros [Hw|Hw]; [inversion Hw; subst; contradiction|contradiction].
Qed.

Section Write.
  Variable H : list byte -> N.
  Variable enc : json -> bytes.
  Variable dec : bytes -> option json.
  Notation rep := (rep H enc dec).
  Notation lossless := (lossless enc dec).

  (** Index entries are exactly the stored properties with indexed names. *)
  Definition exact (L : lstate) (ix : oset ident) : Prop :=
    (forall n h id, mem (n, (h, id)) (l_vv L) = true <->
       mem n ix = true /\ exists x, get (id, n) (l_vp L) = Some x /\ h = hash8 H x) /\
    (forall n h e, mem (n, (h, e)) (l_ev L) = true <->
       mem n ix = true /\ exists x, get (e, n) (l_ep L) = Some x /\ h = hash8 H x).

  Lemma exact_rix L ix n : exact L ix -> mem n ix = true -> no_orphans (gabs L ix) -> rix_ok H L n.
  Proof.
    intros [X1 X2] Hn NO. split; [|split].
    - intros h id. rewrite X1. tauto.
    - intros h e. rewrite X2. tauto.
    - intros e x Hx. eapply (no_eorphan NO); eauto.
  Qed.

  (** ** Deletions *)

  Record delp := DelP {
    p_v : uuid -> Prop;
    p_e : edge -> Prop;
    p_vp : uuid * ident -> Prop;
    p_ep : edge * ident -> Prop }.

  Section Dels.
    Variable s : rstate.
    Variable L : lstate.
    Hypothesis R : rep (r_db s) L.
    Notation d := (r_db s).
    Notation ix := (r_indexed s).

    (** The entries deleted by a batch. *)
    Inductive dset (p : delp) : wop -> Prop :=
    | ds_v i : p_v p i -> dset p (Del CFV (vertex_key H i))
    | ds_e e : p_e p e -> dset p (Del CFE (edge_key H e))
    | ds_r e : p_e p e -> dset p (Del CFR (edge_key H (reversed e)))
    | ds_vp i n : p_vp p (i, n) -> dset p (Del CFVP (vprop_key H i n))
    | ds_ep e n : p_ep p (e, n) -> dset p (Del CFEP (eprop_key H e n))
    | ds_vv i n x : p_vp p (i, n) -> mem n ix = true -> get (i, n) (l_vp L) = Some x ->
        dset p (Del CFVV (vvalue_key H n x i))
    | ds_ev e n x : p_ep p (e, n) -> mem n ix = true -> get (e, n) (l_ep L) = Some x ->
        dset p (Del CFEV (evalue_key H n x e)).

    Definition dels (x : outcome batch) (p : delp) : Prop :=
      exists b, x = Ok b /\ forall w, In w b <-> dset p w.

    Lemma dset_iff p q w : (forall i, p_v p i -> p_v q i) -> (forall e, p_e p e -> p_e q e) ->
      (forall k, p_vp p k -> p_vp q k) -> (forall k, p_ep p k -> p_ep q k) -> dset p w -> dset q w.
    Proof. intros A B C D []; econstructor; eauto. Qed.

    Definition punion {A} (l : list A) (f : A -> delp) : delp :=
      DelP (fun i => exists a, In a l /\ p_v (f a) i) (fun e => exists a, In a l /\ p_e (f a) e)
           (fun k => exists a, In a l /\ p_vp (f a) k) (fun k => exists a, In a l /\ p_ep (f a) k).
    Definition por (p q : delp) : delp :=
      DelP (fun i => p_v p i \/ p_v q i) (fun i => p_e p i \/ p_e q i) (fun i => p_vp p i \/ p_vp q i)
           (fun i => p_ep p i \/ p_ep q i).
    Definition pnone : delp := DelP (fun _ => False) (fun _ => False) (fun _ => False) (fun _ => False).

    Lemma dels_none : dels (Ok []) pnone.
    Proof. exists []. split; [reflexivity|]. intros w. split; [intros []|intros []; contradiction]. Qed.

    Lemma dset_or p q w : dset (por p q) w <-> dset p w \/ dset q w.
    Proof.
      split.
      - intros []; cbn in *; match goal with Hx : _ \/ _ |- _ => destruct Hx end; (left; econstructor; eassumption) || (right; econstructor; eassumption).
      - intros [Hw|Hw]; eapply dset_iff; try exact Hw; cbn; auto.
    Qed.

    Lemma dels_app x y p q : dels x p -> dels y q ->
      dels (let? a := x in let? b := y in Ok (a ++ b)) (por p q).
    Proof.
      intros (b & -> & Hb) (c & -> & Hc). exists (b ++ c). split; [reflexivity|].
      intros w. rewrite in_app_iff, Hb, Hc. symmetry. apply dset_or.
    Qed.

    Lemma for_each_dels {A} (l : list A) (f : A -> outcome batch) (p : A -> delp) :
      (forall a, In a l -> dels (f a) (p a)) -> dels (for_each (map Ok l) f) (punion l p).
    Proof.
      induction l as [|a l IH]; intros Hf; cbn [map for_each obind].
      - exists []. split; [reflexivity|]. intros w. split; [intros []|].
        intros []; cbn in *; match goal with Hx : exists _, _ |- _ => destruct Hx as (? & [] & _) end.
      - destruct (Hf a (or_introl eq_refl)) as (b & E & Hb). rewrite E. cbn [obind].
        destruct IH as (c & Ec & Hc); [intros; apply Hf; now right|]. rewrite Ec. cbn [obind].
        exists (b ++ c). split; [reflexivity|]. intros w. rewrite in_app_iff, Hb, Hc. split.
        + intros [Hw|Hw]; eapply dset_iff; try exact Hw; cbn.
          * eauto.
          * eauto.
          * eauto.
          * eauto.
          * intros i (a' & H1 & H2). eauto.
          * intros i (a' & H1 & H2). eauto.
          * intros i (a' & H1 & H2). eauto.
          * intros i (a' & H1 & H2). eauto.
        + intros []; cbn in *; match goal with Hx : exists _, _ |- _ => destruct Hx as (a' & [<-|Ha] & Hx) end;
            (left; econstructor; eassumption) || (right; econstructor; try eassumption; cbn; eauto).
    Qed.

    Definition pvp1 (k : uuid * ident) : delp := DelP (fun _ => False) (fun _ => False) (eq k) (fun _ => False).
    Definition pep1 (k : edge * ident) : delp := DelP (fun _ => False) (fun _ => False) (fun _ => False) (eq k).

    Lemma vprop_delete_dels id n : dels (vprop_delete H dec d ix id n) (pvp1 (id, n)).
    Proof.
      unfold vprop_delete. rewrite (vprop_get_rep s R). cbn [obind].
      destruct (mem n ix) eqn:Ei; cbn [obind].
      - destruct (get (id, n) (l_vp L)) as [x|] eqn:E.
        + eexists. split; [reflexivity|]. intros w. cbn [app In]. split.
          * intros [<-|[<-|[]]].
            -- econstructor; try eassumption. reflexivity.
            -- constructor. reflexivity.
          * intros []; cbn in *; try contradiction; match goal with Hx : (_, _) = (_, _) |- _ => inversion Hx; subst end.
            -- auto.
            -- left. congruence.
        + eexists. split; [reflexivity|]. intros w. cbn [app In]. split.
          * intros [<-|[]]. constructor. reflexivity.
          * intros []; cbn in *; try contradiction; match goal with Hx : (_, _) = (_, _) |- _ => inversion Hx; subst end.
            -- auto.
            -- congruence.
      - eexists. split; [reflexivity|]. intros w. cbn [app In]. split.
        + intros [<-|[]]. constructor. reflexivity.
        + intros []; cbn in *; try contradiction; match goal with Hx : (_, _) = (_, _) |- _ => inversion Hx; subst end.
          * auto.
          * congruence.
    Qed.
    Lemma eprop_delete_dels e n : dels (eprop_delete H dec d ix e n) (pep1 (e, n)).
    Proof.
      unfold eprop_delete. rewrite (eprop_get_rep s R). cbn [obind].
      destruct (mem n ix) eqn:Ei; cbn [obind].
      - destruct (get (e, n) (l_ep L)) as [x|] eqn:E.
        + eexists. split; [reflexivity|]. intros w. cbn [app In]. split.
          * intros [<-|[<-|[]]].
            -- econstructor; try eassumption. reflexivity.
            -- constructor. reflexivity.
          * intros []; cbn in *; try contradiction; match goal with Hx : (_, _) = (_, _) |- _ => inversion Hx; subst end.
            -- auto.
            -- left. congruence.
        + eexists. split; [reflexivity|]. intros w. cbn [app In]. split.
          * intros [<-|[]]. constructor. reflexivity.
          * intros []; cbn in *; try contradiction; match goal with Hx : (_, _) = (_, _) |- _ => inversion Hx; subst end.
            -- auto.
            -- congruence.
      - eexists. split; [reflexivity|]. intros w. cbn [app In]. split.
        + intros [<-|[]]. constructor. reflexivity.
        + intros []; cbn in *; try contradiction; match goal with Hx : (_, _) = (_, _) |- _ => inversion Hx; subst end.
          * auto.
          * congruence.
    Qed.

    (** [x] deletes the entries [p], up to an equivalent description. *)
    Lemma dels_iff x p q : dels x p -> (forall i, p_v p i <-> p_v q i) -> (forall e, p_e p e <-> p_e q e) ->
      (forall k, p_vp p k <-> p_vp q k) -> (forall k, p_ep p k <-> p_ep q k) -> dels x q.
    Proof.
      intros (b & E & Hb) A B C D. exists b. split; [assumption|]. intros w. rewrite Hb.
      split; intros Hw; eapply dset_iff; try exact Hw; intros k Hk;
        ((now apply A) || (now apply B) || (now apply C) || (now apply D)).
    Qed.

    Definition pedge (e : edge) : delp :=
      DelP (fun _ => False) (eq e) (fun _ => False) (fun k => fst k = e /\ exists x, get k (l_ep L) = Some x).

    Lemma edge_delete_dels e : dels (edge_delete H dec d ix e) (pedge e).
    Proof.
      unfold edge_delete. destruct (eprops_for_owner_rep s R e) as (l & -> & _ & Hl).
      destruct (@for_each_dels _ (map (fun a => (e, fst a, snd a)) l)
                  (fun it => eprop_delete H dec d ix (fst (fst it)) (snd (fst it)))
                  (fun it => pep1 (fst it))) as (b & -> & Hb).
      { intros [[e' n] x] _. cbn [fst snd]. apply eprop_delete_dels. }
      cbn [obind]. eexists. split; [reflexivity|]. intros w. cbn [app In]. rewrite Hb. split.
      - intros [<-|[<-|Hw]]; [constructor; reflexivity|constructor; reflexivity|].
        eapply dset_iff; try exact Hw; cbn; try (intros ? (? & _ & F); contradiction F).
        intros k (a & Ha & <-). apply in_map_iff in Ha as ([n x] & <- & Ha). cbn [fst snd]. split; [reflexivity|].
        exists x. now apply (Hl (n, x)).
      - assert (forall k, p_ep (pedge e) k -> p_ep (punion (map (fun a => (e, fst a, snd a)) l) (fun it => pep1 (fst it))) k) as Hk.
        { intros [e1 n1] [<- (x & Hx)]. exists (e1, n1, x). split; [|reflexivity].
          apply in_map_iff. exists (n1, x). split; [reflexivity|]. now apply (Hl (n1, x)). }
        intros Hw. destruct Hw as [i Hi|e1 He|e1 He|i n Hi|e1 n He|i n x Hi|e1 n x He Hn Hg]; cbn in *; try contradiction.
        + subst. auto.
        + subst. auto.
        + right; right. constructor. now apply Hk.
        + right; right. econstructor; eauto. now apply Hk.
    Qed.

    (** Everything deleted with a vertex. *)
    Definition pvertex (id : uuid) : delp :=
      DelP (eq id) (fun e => eout e = id /\ (mem e (l_e L) = true \/ mem (reversed e) (l_e L) = true))
           (fun k => fst k = id /\ exists x, get k (l_vp L) = Some x)
           (fun k => eout (fst k) = id /\ (mem (fst k) (l_e L) = true \/ mem (reversed (fst k)) (l_e L) = true) /\
                     exists x, get k (l_ep L) = Some x).

    Lemma edges_delete_dels (c : cf) (t : oset edge) id : table_rep (edge_key H) unitf c t ->
      dels (for_each (edges_for_root H c id) (fun e => dassert (eqb (eout e) id) (edge_delete H dec d ix e)))
           (DelP (fun _ => False) (fun e => mem e t = true /\ eout e = id) (fun _ => False)
                 (fun k => mem (fst k) t = true /\ eout (fst k) = id /\ exists x, get k (l_ep L) = Some x)).
    Proof.
      intros Rt. destruct (edges_for_root_rep id Rt) as (l & -> & Hl).
      eapply dels_iff; [apply for_each_dels with (p := pedge)| | | |]; cbn.
      - intros e He. apply Hl in He as [_ <-]. unfold dassert. rewrite eqb_refl. apply edge_delete_dels.
      - intros i. split; [intros (? & _ & [])|intros []].
      - intros e. rewrite <- Hl. split; [now intros (a & Ha & ->)|eauto].
      - intros i. split; [intros (? & _ & [])|intros []].
      - intros k. split.
        + intros (a & Ha & <- & Hx). apply Hl in Ha as [H1 H2]. auto.
        + intros (H1 & H2 & Hx). exists (fst k). split; [now apply Hl|auto].
    Qed.

    Lemma vertex_delete_dels id : dels (vertex_delete H dec d ix id) (pvertex id).
    Proof.
      unfold vertex_delete. destruct (vprops_for_owner_rep s R id) as (l & -> & _ & Hl).
      destruct (@for_each_dels _ (map (fun a => (id, fst a, snd a)) l)
                  (fun it => vprop_delete H dec d ix (fst (fst it)) (snd (fst it)))
                  (fun it => pvp1 (fst it))) as (b1 & -> & Hb1).
      { intros [[i n] x] _. cbn [fst snd]. apply vprop_delete_dels. }
      destruct (edges_delete_dels id (rp_e R)) as (b2 & -> & Hb2).
      destruct (edges_delete_dels id (rp_r R)) as (b3 & -> & Hb3).
      cbn [obind]. eexists. split; [reflexivity|]. intros w. cbn [app In].
      rewrite !in_app_iff, Hb1, Hb2, Hb3. split.
      - intros [<-|[Hw|[Hw|Hw]]]; [constructor; reflexivity| | |]; eapply dset_iff; try exact Hw; cbn;
          try (intros ? (? & _ & F); contradiction F); try (intros ? F; contradiction F).
        + intros k (a & Ha & <-). apply in_map_iff in Ha as ([n x] & <- & Ha). cbn [fst snd]. split; [reflexivity|].
          exists x. now apply (Hl (n, x)).
        + tauto.
        + tauto.
        + intros e. rewrite (rp_mirror R). tauto.
        + intros e. rewrite (rp_mirror R). tauto.
      - assert (forall k, p_vp (pvertex id) k -> p_vp (punion (map (fun a => (id, fst a, snd a)) l) (fun it => pvp1 (fst it))) k) as Hk.
        { intros [e1 n1] [<- (x & Hx)]. exists (e1, n1, x). split; [|reflexivity].
          apply in_map_iff. exists (n1, x). split; [reflexivity|]. now apply (Hl (n1, x)). }
        intros Hw. destruct Hw as [i Hi|e1 He|e1 He|i n Hi|e1 n He|i n x Hi Hn Hg|e1 n x He Hn Hg].
        + left. cbn in Hi. now subst.
        + destruct He as [He [Hm|Hm]]; [right; right; left|right; right; right]; constructor; cbn; rewrite ?(rp_mirror R); auto.
        + destruct He as [He [Hm|Hm]]; [right; right; left|right; right; right]; constructor; cbn; rewrite ?(rp_mirror R); auto.
        + right; left. constructor. now apply Hk.
        + destruct He as (He & [Hm|Hm] & Hx); [right; right; left|right; right; right]; constructor; cbn; rewrite ?(rp_mirror R); auto.
        + right; left. econstructor; eauto.
        + destruct He as (He & [Hm|Hm] & Hx); [right; right; left|right; right; right]; econstructor; try eassumption; cbn; rewrite ?(rp_mirror R); auto.
    Qed.

    (** *** The logical state after deletions *)

    Definition vv_gone (fvp : uuid * ident -> bool) (k : ident * (h8 * uuid)) : bool :=
      mem (fst k) ix && fvp (snd (snd k), fst k) &&
      match get (snd (snd k), fst k) (l_vp L) with Some x => eqb (fst (snd k)) (hash8 H x) | None => false end.
    Definition ev_gone (fep : edge * ident -> bool) (k : ident * (h8 * edge)) : bool :=
      mem (fst k) ix && fep (snd (snd k), fst k) &&
      match get (snd (snd k), fst k) (l_ep L) with Some x => eqb (fst (snd k)) (hash8 H x) | None => false end.
    Definition ldel (fv : uuid -> bool) (fe : edge -> bool) (fvp : uuid * ident -> bool) (fep : edge * ident -> bool) : lstate :=
      LState (filt (fun kv => negb (fv (fst kv))) (l_v L))
             (filt (fun kv => negb (fe (fst kv))) (l_e L))
             (filt (fun kv => negb (fe (reversed (fst kv)))) (l_r L))
             (filt (fun kv => negb (fvp (fst kv))) (l_vp L))
             (filt (fun kv => negb (fep (fst kv))) (l_ep L))
             (filt (fun kv => negb (vv_gone fvp (fst kv))) (l_vv L))
             (filt (fun kv => negb (ev_gone fep (fst kv))) (l_ev L))
             (l_m L).

    Lemma rep_ldel b p fv fe fvp fep :
      (forall w, In w b <-> dset p w) ->
      (forall i, p_v p i <-> fv i = true) ->
      (forall e, mem e (l_e L) = true -> (p_e p e <-> fe e = true)) ->
      (forall k x, get k (l_vp L) = Some x -> (p_vp p k <-> fvp k = true)) ->
      (forall k x, get k (l_ep L) = Some x -> (p_ep p k <-> fep k = true)) ->
      rep (apply_batch b d) (ldel fv fe fvp fep).
    Proof.
      intros Hb Hv He Hvp Hep.
      assert (forall w, In w b -> exists c k, w = Del c k) as Hd.
      { intros w Hw. apply Hb in Hw. destruct Hw; eauto. }
      assert (forall (c : cfid) k, (In (Del c k) b -> get k (cf_of (apply_batch b d) c) = None)) as A1
        by (intros c k; apply apply_dels, Hd).
      assert (forall (c : cfid) k, (~ In (Del c k) b -> get k (cf_of (apply_batch b d) c) = get k (cf_of d c))) as A2
        by (intros c k; apply apply_dels, Hd).
      assert (forall {K V : Type} {O : Ord K} (kf : K -> bytes) (vf : V -> bytes) (c : cfid) (t : omap K V) (f : K -> bool),
        (forall a b, kf a = kf b -> a = b) -> table_rep kf vf (cf_of d c) t ->
        (forall k x, get k t = Some x -> (In (Del c (kf k)) b <-> f k = true)) ->
        table_rep kf vf (cf_of (apply_batch b d) c) (filt (fun kv => negb (f (fst kv))) t)) as T.
      { intros K V O kf vf c t f inj [T1 T2] Hf. split.
        - intros k. rewrite (get_filt_key (fun k => negb (f k))). destruct (in_dec wop_eq_dec (Del c (kf k)) b) as [Hin|Hni].
          + rewrite (A1 _ _ Hin). destruct (get k t) as [x|] eqn:E; [|now destruct (negb (f k))].
            apply (Hf k x E) in Hin. now rewrite Hin.
          + rewrite (A2 _ _ Hni), T1. destruct (get k t) as [x|] eqn:E; [|now destruct (negb (f k))].
            destruct (f k) eqn:F; [|reflexivity]. elim Hni. now apply (Hf k x E).
        - intros k v Hk. destruct (in_dec wop_eq_dec (Del c k) b) as [Hin|Hni].
          + rewrite (A1 _ _ Hin) in Hk. discriminate.
          + rewrite (A2 _ _ Hni) in Hk. eauto. }
      split; cbn [ldel l_v l_e l_r l_vp l_ep l_vv l_ev l_m].
      - apply (T _ _ _ _ _ CFV); [apply vertex_key_inj|apply (rp_v R)|]. intros k x Hg. rewrite Hb, <- Hv. split.
        + intros Hw. inversion Hw as [i Hi E| | | | | |]. apply vertex_key_inj in E. now subst.
        + intros Hi. now constructor.
      - apply (T _ _ _ _ _ CFE); [apply edge_key_inj|apply (rp_e R)|]. intros k x Hg.
        assert (mem k (l_e L) = true) as Hm by (apply mem_get; eauto). rewrite Hb, <- (He k Hm). split.
        + intros Hw. inversion Hw as [|i Hi E| | | | |]. apply edge_key_inj in E. now subst.
        + intros Hi. now constructor.
      - apply (T _ _ _ _ _ CFR) with (f := fun e => fe (reversed e)); [apply edge_key_inj|apply (rp_r R)|]. intros k x Hg.
        assert (mem (reversed k) (l_e L) = true) as Hm by (rewrite <- (rp_mirror R); apply mem_get; eauto). rewrite Hb, <- (He _ Hm). split.
        + intros Hw. inversion Hw as [| |i Hi E| | | |]. apply edge_key_inj in E. subst. now rewrite reversed_invol.
        + intros Hi. rewrite <- (reversed_invol k). now constructor.
      - apply (T _ _ _ _ _ CFVP); [apply vpk_inj|apply (rp_vp R)|]. intros [i n] x Hg. rewrite Hb, <- (Hvp _ _ Hg). split.
        + intros Hw. inversion Hw as [| | |i' n' Hi E| | |]. change (vpk H (i', n') = vpk H (i, n)) in E. apply vpk_inj in E. inversion E. now subst.
        + intros Hi. now apply (ds_vp p i n).
      - apply (T _ _ _ _ _ CFEP); [apply epk_inj|apply (rp_ep R)|]. intros [i n] x Hg. rewrite Hb, <- (Hep _ _ Hg). split.
        + intros Hw. inversion Hw as [| | | |i' n' Hi E| |]. change (epk H (i', n') = epk H (i, n)) in E. apply epk_inj in E. inversion E. now subst.
        + intros Hi. now apply (ds_ep p i n).
      - apply (T _ _ _ _ _ CFVV); [apply vvk_inj|apply (rp_vv R)|]. intros [n [h i]] x Hg. rewrite Hb. unfold vv_gone. cbn [fst snd].
        rewrite !andb_true_iff. split.
        + intros Hw. remember (vvk (n, (h, i))) as kk eqn:Ek. inversion Hw as [| | | | |i' n' y Hi Hn Hy E|].
          rewrite Ek, vvalue_key_vvk in E. apply vvk_inj in E. clear Ek. inversion E; subst.
          rewrite Hy, eqb_refl. repeat split; auto. now apply (Hvp _ _ Hy).
        + intros [[Hn Hi] Hx]. destruct (get (i, n) (l_vp L)) as [y|] eqn:E; [|discriminate]. apply eqb_eq in Hx. subst.
          rewrite <- vvalue_key_vvk. constructor; auto. now apply (Hvp _ _ E).
      - apply (T _ _ _ _ _ CFEV); [apply evk_inj|apply (rp_ev R)|]. intros [n [h i]] x Hg. rewrite Hb. unfold ev_gone. cbn [fst snd].
        rewrite !andb_true_iff. split.
        + intros Hw. remember (evk H (n, (h, i))) as kk eqn:Ek. inversion Hw as [| | | | | |i' n' y Hi Hn Hy E].
          rewrite Ek, evalue_key_evk in E. apply evk_inj in E. clear Ek. inversion E; subst.
          rewrite Hy, eqb_refl. repeat split; auto. now apply (Hep _ _ Hy).
        + intros [[Hn Hi] Hx]. destruct (get (i, n) (l_ep L)) as [y|] eqn:E; [|discriminate]. apply eqb_eq in Hx. subst.
          rewrite <- evalue_key_evk. constructor; auto. now apply (Hep _ _ E).
      - change (d_meta (apply_batch b d)) with (cf_of (apply_batch b d) CFM). rewrite A2; [apply (rp_m R)|].
        intros Hw. apply Hb in Hw. inversion Hw.
      - intros k v. rewrite (get_filt_key (fun k => negb (fvp k))). destruct (negb (fvp k)); [apply (rp_vgood R)|discriminate].
      - intros k v. rewrite (get_filt_key (fun k => negb (fep k))). destruct (negb (fep k)); [apply (rp_egood R)|discriminate].
      - intros e. rewrite (mem_filt (fun e => negb (fe (reversed e)))), (mem_filt (fun e => negb (fe e))). now rewrite (rp_mirror R).
    Qed.

    Lemma exact_ldel fv fe fvp fep : exact L ix -> exact (ldel fv fe fvp fep) ix.
    Proof.
      intros [X1 X2]. split; intros n h i; cbn [ldel l_vv l_ev l_vp l_ep].
      - rewrite (mem_filt (fun k => negb (vv_gone fvp k))), andb_true_iff, X1. unfold vv_gone. cbn [fst snd].
        rewrite (get_filt_key (fun k => negb (fvp k))). split.
        + intros (Hg & Hn & x & Hx & ->). rewrite Hn, Hx, eqb_refl, !andb_true_r in Hg. cbn in Hg. rewrite Hg, Hx. eauto.
        + intros (Hn & x & Hx & ->). destruct (negb (fvp (i, n))) eqn:E; [|discriminate]. apply negb_true_iff in E.
          rewrite E, andb_false_r. split; [reflexivity|]. eauto.
      - rewrite (mem_filt (fun k => negb (ev_gone fep k))), andb_true_iff, X2. unfold ev_gone. cbn [fst snd].
        rewrite (get_filt_key (fun k => negb (fep k))). split.
        + intros (Hg & Hn & x & Hx & ->). rewrite Hn, Hx, eqb_refl, !andb_true_r in Hg. cbn in Hg. rewrite Hg, Hx. eauto.
        + intros (Hn & x & Hx & ->). destruct (negb (fep (i, n))) eqn:E; [|discriminate]. apply negb_true_iff in E.
          rewrite E, andb_false_r. split; [reflexivity|]. eauto.
    Qed.
  End Dels.
End Write.
