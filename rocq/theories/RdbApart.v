(** * RocksDB: concurrent calls that do not touch each other's data are linearizable *)
From Verif Require Import Base OMap Json Types Util Db Rdb Spec MemFacts Conc RdbProg RdbAlone RdbConc RdbLive RdbSched RdbSerial KeyFacts Foot RdbFoot.

Set Implicit Arguments.

Section Apart.
  Variable H : list byte -> N.
  Variable enc : json -> bytes.
  Variable dec : bytes -> option json.

  (** ** The edge tables hold keys of edges, after any history *)

  Lemma keyed_other d c x : c <> CFE -> c <> CFR -> keyed H d -> keyed H (cf_set d c x).
  Proof. intros N1 N2 K c' k C M. rewrite cf_set_other in M by (destruct C as [-> | ->]; congruence). eauto. Qed.
  Lemma keyed_put b : (forall w, In w b -> fst (wop_at w) <> CFE /\ fst (wop_at w) <> CFR) -> forall d, keyed H d -> keyed H (apply_batch b d).
  Proof.
    unfold apply_batch. induction b as [|w b IH]; intros A d K; cbn [fold_left]; [exact K|].
    apply IH; [intros; apply A; now right|]. destruct (A w (or_introl eq_refl)) as [N1 N2].
    destruct w; cbn in *; now apply keyed_other.
  Qed.

  Lemma for_each_In {A} (P : wop -> Prop) (l : list (outcome A)) f b : for_each l f = Ok b ->
    (forall a b', f a = Ok b' -> forall w, In w b' -> P w) -> forall w, In w b -> P w.
  Proof.
    intros E F. revert b E. induction l as [|x r IH]; intros b E w Hw; cbn in E; [inversion E; subst; destruct Hw|].
    destruct x as [a| |]; try discriminate. cbn in E. destruct (f a) as [b1| |] eqn:Fa; try discriminate. cbn in E.
    destruct (for_each r f) as [b2| |]; try discriminate. cbn in E. inversion E; subst.
    apply in_app_or in Hw as [Hw|Hw]; [eapply F; eauto|eapply IH; eauto].
  Qed.

  Lemma alone_keyed {A} R W (Q : A -> Prop) e (p : prog A) : forall s, foot H R W Q p -> keyed H (r_db s) -> keyed H (r_db (snd (alone e s p))).
  Proof.
    induction p as [x|k IH|k IH|k IH|k IH|ix2 k IH|b k IH]; intros s F K; cbn in *; try contradiction; auto.
    - apply IH; [apply F|exact K].
    - destruct F as [F1 F2]. destruct (wok e); [|exact K]. apply IH; [exact F2|]. cbn. eapply within_keyed; eauto.
  Qed.

  Lemma step_keyed s e o : keyed H (r_db s) -> keyed H (r_db (snd (rdb_step H enc dec s (e, o)))).
  Proof.
    intros K. assert ((exists n, o = OIndexProperty n) \/ forall n, o <> OIndexProperty n) as [(n & ->)|N] by (destruct o; eauto; right; discriminate).
    - unfold rdb_step. cbn [fst snd exec resw t_index_property rdb_ops]. unfold rdb_index_property.
      destruct (mem n (r_indexed s)); [exact K|]. unfold write_built.
      destruct (for_each (vertices_from H (r_db s) nil_uuid) _) as [b1| |] eqn:E1; cbn [obind]; try exact K.
      destruct (for_each (edges_all (r_db s)) _) as [b2| |] eqn:E2; cbn [obind]; try exact K.
      unfold write. destruct (wok e); cbn [snd r_db]; [|exact K]. apply keyed_put; [|exact K].
      intros w Hw. apply in_app_or in Hw as [[<-|[]]|Hw]; [cbn; split; discriminate|]. apply in_app_or in Hw as [Hw|Hw].
      + pattern w. eapply for_each_In; [exact E1| |exact Hw]. intros a b' Eb w' Hw'. cbv beta in Eb.
        destruct (vprop_get H dec (r_db s) (vid a) n) as [[x|]| |]; cbn in Eb; inversion Eb; subst; [|destruct Hw'].
        destruct Hw' as [<-|[]]. cbn. split; discriminate.
      + pattern w. eapply for_each_In; [exact E2| |exact Hw]. intros a b' Eb w' Hw'. cbv beta in Eb.
        destruct (eprop_get H dec (r_db s) a n) as [[x|]| |]; cbn in Eb; inversion Eb; subst; [|destruct Hw'].
        destruct Hw' as [<-|[]]. cbn. split; discriminate.
    - rewrite <- alone_step. eapply alone_keyed; [|exact K]. now apply call_foot.
  Qed.

  Lemma run_keyed h : keyed H (r_db (rdb_run H enc dec h)).
  Proof.
    unfold rdb_run. assert (keyed H (r_db rdb_empty)) as K by (intros c k [-> | ->] M; discriminate M).
    revert K. generalize rdb_empty. induction h as [|[e o] h IH]; intros s K; cbn [fold_left]; [exact K|]. apply IH. now apply step_keyed.
  Qed.

  (** ** The invariant *)

  Lemma so_far_foot e o d ix p : so_far H enc dec e o d ix p -> (forall n, o <> OIndexProperty n) -> foot H (depends o) (alters o) (fun _ => True) p.
  Proof.
    intros S N. induction S as [|f S IH|f S IH|f S IH].
    - now apply call_foot.
    - apply IH.
    - apply IH.
    - apply IH.
  Qed.
  Lemma so_far_keep e o d d' ix p : so_far H enc dec e o d ix p -> (forall n, o <> OIndexProperty n) ->
    keyed H d -> keyed H d' -> keeps H (depends o) d d' -> so_far H enc dec e o d' ix p.
  Proof.
    intros S N K1 K2 K. induction S as [|f S IH|f S IH|f S IH].
    - constructor.
    - pose proof (so_far_foot S N) as [_ F]. rewrite <- (F d d' K1 K2 K). now apply URead.
    - now apply UNames.
    - now apply UGuard.
  Qed.

  (** *** [index_property] *)

  Definition away (b : batch) : Prop := forall w, In w b -> fst (wop_at w) <> CFE /\ fst (wop_at w) <> CFR.

  (** All writes of the program are [away] from the edge tables. *)
  Fixpoint kp {A} (Q : A -> Prop) (p : prog A) : Prop :=
    match p with
    | PRet x => match x with Ok a => Q a | _ => True end
    | PDb k => forall d, kp Q (k d)
    | PIx k => forall ix, kp Q (k ix)
    | PShared k => forall ix, kp Q (k ix)
    | PExcl k => forall ix, kp Q (k ix)
    | PSetIx _ k => kp Q k
    | PWrite b k => away b /\ kp Q k
    end.
  Lemma kp_bind {A B} (Q : A -> Prop) (Q' : B -> Prop) p f : kp Q p -> (forall a, Q a -> kp Q' (f a)) -> kp Q' (pbind p f).
  Proof.
    intros F G. induction p as [x|k IH|k IH|k IH|k IH|ix2 k IH|b k IH]; cbn in *; auto.
    - destruct x; cbn; auto.
    - destruct F as [F1 F2]. auto.
  Qed.
  Lemma kp_each {A} (l : list (outcome A)) f : (forall a, kp away (f a)) -> kp away (p_each l f).
  Proof.
    intros F. induction l as [|x r IH]; cbn [p_each]; [intros w []|].
    apply kp_bind with (Q := fun _ => True); [cbn; now destruct x|]. intros a _. apply kp_bind with (Q := away); [apply F|].
    intros b1 B1. apply kp_bind with (Q := away); [exact IH|]. intros b2 B2. cbn. intros w Hw. apply in_app_or in Hw as [Hw|Hw]; auto.
  Qed.
  Lemma kp_index e n : kp (fun _ => True) (prog_of H enc dec e (OIndexProperty n)).
  Proof.
    cbn [prog_of p_index_property kp]. intros ix. destruct (mem n ix); [exact I|]. cbn [kp].
    apply kp_bind with (Q := fun _ => True); [cbn; auto|]. intros vs _. apply kp_bind with (Q := away).
    { apply kp_each. intros v. apply kp_bind with (Q := fun _ => True); [cbn; intros d; now destruct (vprop_get H dec d (vid v) n)|].
      intros [x|] _; cbn; [|intros w []]. intros w [<-|[]]. cbn. split; discriminate. }
    intros b1 B1. apply kp_bind with (Q := fun _ => True); [cbn; auto|]. intros es _. apply kp_bind with (Q := away).
    { apply kp_each. intros v. apply kp_bind with (Q := fun _ => True); [cbn; intros d; now destruct (eprop_get H dec d v n)|].
      intros [x|] _; cbn; [|intros w []]. intros w [<-|[]]. cbn. split; discriminate. }
    intros b2 B2. cbn. split; [|exact I]. intros w [<-|Hw]; [cbn; split; discriminate|]. apply in_app_or in Hw as [Hw|Hw]; auto.
  Qed.

  Record fi (k : rconfig) : Prop := {
    fi_keyed : keyed H (rc_db k);
    fi_run : forall t c e g p, rc_threads k t = Running c e g p -> exists o,
      In (Inv c t o) (rc_hist k) /\ (forall r, ~ In (Ret c r) (rc_hist k)) /\
      ((g <> GExcl /\ (forall n, o <> OIndexProperty n) /\ ((exists r, p = PRet r) \/ so_far H enc dec e o (rc_db k) (rc_ix k) p)) \/
       ((exists n, o = OIndexProperty n) /\ (forall t', t' <> t -> rc_threads k t' = RIdle) /\ kp (fun _ => True) p));
    fi_inv : forall c t o, In (Inv c t o) (rc_hist k) -> c < rc_next k;
    fi_inv1 : forall c t o t' o', In (Inv c t o) (rc_hist k) -> In (Inv c t' o') (rc_hist k) -> t = t' /\ o = o';
    fi_ret : forall c r, In (Ret c r) (rc_hist k) -> exists t o, In (Inv c t o) (rc_hist k) }.

  Ltac in_snoc H := apply in_app_or in H as [H | [H | []]].

  Definition in_progress (h : list event) (c t : nat) (o : op) : Prop := In (Inv c t o) h /\ forall r, ~ In (Ret c r) h.
  Lemma overlapping h c t o c' t' o' : apart_when_concurrent h -> in_progress h c t o -> in_progress h c' t' o' -> c <> c' -> apart o o'.
  Proof.
    intros AP [A B] [A' B'] N. destruct (AP _ _ _ _ _ _ A A' N) as [(r & X)|[(r & X)|X]]; [| |exact X];
      apply before_in in X as [X _]; [now apply B in X|now apply B' in X].
  Qed.

  Lemma fi_step k k' : fi k -> rstep H enc dec k k' -> apart_when_concurrent (rc_hist k') ->
    fi k' /\ orderly H enc dec k k'.
  Proof.
    intros [FK R I1 I2 I3] St AP.
    (* a step of thread [t] inside its call *)
    assert (forall t c e g p d' ix' g' p', rc_threads k t = Running c e g p ->
      k' = RConfig d' ix' (upd (rc_threads k) t (Running c e g' p')) (rc_hist k) (rc_next k) ->
      p' <> p -> (forall r, p <> PRet r) -> keyed H d' ->
      (forall o, (forall n, o <> OIndexProperty n) -> g <> GExcl -> In (Inv c t o) (rc_hist k) -> so_far H enc dec e o (rc_db k) (rc_ix k) p ->
         g' <> GExcl /\ ix' = rc_ix k /\ ((exists r, p' = PRet r) \/ so_far H enc dec e o d' ix' p') /\
         (d' = rc_db k \/ forall o2, (forall n, o2 <> OIndexProperty n) -> apart o o2 -> keeps H (depends o2) (rc_db k) d')) ->
      (kp (fun _ => True) p -> kp (fun _ => True) p') ->
      fi k' /\ orderly H enc dec k k') as Go.
    { intros t c e g p d' ix' g' p' Th -> Mv NR FK' Nx Kx. cbn [rc_hist] in AP.
      destruct (R _ _ _ _ _ Th) as (o & A & B & C).
      assert (forall t2 c2 e2 g2 p2, t2 <> t -> rc_threads k t2 = Running c2 e2 g2 p2 -> exists o2,
        In (Inv c2 t2 o2) (rc_hist k) /\ (forall r, ~ In (Ret c2 r) (rc_hist k)) /\ g2 <> GExcl /\ (forall n, o2 <> OIndexProperty n) /\ (forall n, o <> OIndexProperty n) /\
        ((exists r, p2 = PRet r) \/ so_far H enc dec e2 o2 d' ix' p2)) as Oth.
      { intros t2 c2 e2 g2 p2 N2 Th2. destruct (R _ _ _ _ _ Th2) as (o2 & A2 & B2 & C2).
        assert (c <> c2) as Nc by (intros ->; destruct (I2 _ _ _ _ _ A2 A); contradiction).
        assert (apart o o2) as Ap by (eapply overlapping; try split; eauto). pose proof Ap as (N_o & N_o2 & _).
        exists o2. destruct C2 as [(G2 & _ & C2)|((n & ->) & _)]; [|now destruct (N_o2 n)].
        conj; auto. destruct C2 as [C2|C2]; [now left|right].
        destruct C as [(G & _ & C)|((n & ->) & _)]; [|now destruct (N_o n)].
        destruct C as [(r & ->)|C]; [now destruct (NR r)|].
        destruct (Nx o N_o G A C) as (_ & -> & _ & [->|Ke]); [exact C2|]. eapply so_far_keep; eauto. }
      split.
      - constructor; cbn [rc_threads rc_hist rc_ix rc_db rc_next]; auto. intros t' c' e' g2 p2 E.
        destruct (upd_case (rc_threads k) t (Running c e g' p') t') as [[-> U]|[Ne U]]; rewrite U in E.
        + inversion E; subst c' e' g2 p2. exists o. split; [exact A|]. split; [exact B|].
          destruct C as [(G & N_o & C)|(X & Al & Kp)]; [left|right].
          * destruct C as [(r & ->)|C]; [now destruct (NR r)|]. destruct (Nx o N_o G A C) as (G' & -> & C' & _). auto.
          * split; [exact X|]. split; [|auto]. intros t' N'. rewrite <- (Al t' N').
            destruct (upd_case (rc_threads k) t (Running c e g' p') t') as [[-> _]|[_ U']]; [easy|exact U'].
        + destruct (Oth _ _ _ _ _ Ne E) as (o2 & A2 & B2 & G2 & N2 & _ & C2). exists o2. split; [exact A2|]. split; [exact B2|]. left. auto.
      - constructor.
        + destruct C as [(G & N_o & [(r & ->)|C])|(X & Al & Kp)]; [now destruct (NR r)| |].
          * destruct (Nx o N_o G A C) as (_ & -> & _ & _). right.
            intros t2 Same c2 e2 g2 p2 Th2. cbn [rc_threads rc_db rc_ix] in *.
            destruct (Nat.eq_dec t2 t) as [->|N2].
            -- rewrite upd_eq, Th in Same. inversion Same. contradiction.
            -- destruct (Oth _ _ _ _ _ N2 Th2) as (o2 & A2 & _ & _ & _ & _ & C2). destruct C2 as [C2|C2]; [now left|right; eauto].
          * right. intros t2 Same c2 e2 g2 p2 Th2. cbn [rc_threads] in Same. destruct (Nat.eq_dec t2 t) as [->|N2].
            -- rewrite upd_eq, Th in Same. inversion Same. contradiction.
            -- rewrite (Al t2 N2) in Th2. discriminate.
        + intros t1 t2 c2 e2 g2 p2 (c1 & e1 & p1 & E1 & _) N2 Th2. cbn [rc_threads].
          destruct (R _ _ _ _ _ E1) as (o1 & _ & _ & [(G1 & _)|(_ & Al & _)]); [easy|]. rewrite (Al t2 N2) in Th2. discriminate. }
    assert (forall t t' c e g p, indexing k t -> t' <> t -> rc_threads k t' = Running c e g p ->
      rc_threads k' t' = Running c e g p \/ rc_threads k' t' = RIdle) as OI.
    { intros t1 t2 c2 e2 g2 p2 (c1 & e1 & p1 & E1 & _) N2 Th2.
      destruct (R _ _ _ _ _ E1) as (o1 & _ & _ & [(G1 & _)|(_ & Al & _)]); [easy|]. rewrite (Al t2 N2) in Th2. discriminate. }
    assert (forall o e p, (forall n, o <> OIndexProperty n) -> so_far H enc dec e o (rc_db k) (rc_ix k) p -> foot H (depends o) (alters o) (fun _ => True) p) as Fo.
    { intros o e p N S. eapply so_far_foot; eauto. }
    destruct St as [k t e o Th|k t c e g f Th|k t c e g f Th NXc|k t c e g f Th NXc|k t c e g f Th NXc NS|k t c e g ix p Th|
                    k t c e g b p Th W|k t c e g b p Th W|k t c e g r Th].
    - clear Go. split; [|constructor; [left; auto|exact OI]].
      assert (forall t' o', ~ In (Inv (rc_next k) t' o') (rc_hist k)) as F1 by (intros t' o' A; apply I1 in A; lia).
      assert (forall r, ~ In (Ret (rc_next k) r) (rc_hist k)) as F2 by (intros r A; apply I3 in A as (t' & o' & A); now apply F1 in A).
      assert (in_progress (rc_hist k ++ [Inv (rc_next k) t o]) (rc_next k) t o) as Me.
      { split; [apply in_or_app; right; now left|]. intros r A. in_snoc A; [now apply F2 in A|discriminate]. }
      assert (forall t' c' e' g' p', rc_threads k t' = Running c' e' g' p' -> forall o', In (Inv c' t' o') (rc_hist k) -> apart o o') as Ap.
      { intros t' c' e' g' p' E o' A'. destruct (R _ _ _ _ _ E) as (o2 & A & B & C). destruct (I2 _ _ _ _ _ A A') as [_ <-].
        apply (overlapping AP Me (c' := c') (t' := t')).
        - split; [apply in_or_app; now left|]. intros r D. in_snoc D; [now apply B in D|discriminate].
        - intros <-. now apply F1 in A. }
      constructor; cbn [rc_threads rc_hist rc_ix rc_db rc_next]; auto.
      + intros t' c' e' g2 p2 E.
        destruct (upd_case (rc_threads k) t (Running (rc_next k) e GNone (prog_of H enc dec e o)) t') as [[-> U]|[Ne U]]; rewrite U in E.
        * inversion E; subst c' e' g2 p2. exists o. destruct Me as [Me1 Me2]. split; [exact Me1|]. split; [exact Me2|].
          assert ((exists n, o = OIndexProperty n) \/ forall n, o <> OIndexProperty n) as [X|N] by (clear; destruct o; eauto; right; discriminate).
          -- right. split; [exact X|]. split.
             ++ intros t' N'. destruct (upd_case (rc_threads k) t (Running (rc_next k) e GNone (prog_of H enc dec e o)) t') as [[-> _]|[_ ->]]; [easy|].
                destruct (rc_threads k t') as [|c' e' g' p'] eqn:E'; [reflexivity|].
                destruct (R _ _ _ _ _ E') as (o' & A' & _). destruct (Ap _ _ _ _ _ E' _ A') as (N1 & _). destruct X as (n & ->). now destruct (N1 n).
             ++ destruct X as (n & ->). apply kp_index.
          -- left. split; [discriminate|]. split; [exact N|]. right. constructor.
        * destruct (R _ _ _ _ _ E) as (o' & A & B & C). exists o'. split; [apply in_or_app; now left|]. split.
          { intros r D. in_snoc D; [now apply B in D|discriminate]. }
          destruct (Ap _ _ _ _ _ E _ A) as (_ & N1 & _). destruct C as [C|((n & ->) & _)]; [now left|now destruct (N1 n)].
      + intros c t' o' A. in_snoc A; [apply I1 in A; lia|]. inversion A; subst. lia.
      + intros c t1 o1 t2 o2 A B. in_snoc A; in_snoc B.
        * eapply I2; eauto.
        * inversion B; subst. now apply F1 in A.
        * inversion A; subst. now apply F1 in B.
        * inversion A; inversion B; subst. auto.
      + intros c r' A. in_snoc A; [|discriminate]. apply I3 in A as (t' & o' & A). exists t', o'. apply in_or_app; now left.
    - eapply Go; [exact Th|reflexivity|destruct (moves (PDb f)) as (Mv & _); now apply Mv|discriminate|exact FK| |cbn; auto].
      intros o N G _ S. split; [exact G|]. split; [reflexivity|]. split; [right; now apply URead|now left].
    - eapply Go; [exact Th|reflexivity|destruct (moves (PIx f)) as (_ & Mv & _); now apply Mv|discriminate|exact FK| |cbn; auto].
      intros o N G _ S. split; [exact G|]. split; [reflexivity|]. split; [right; now apply UNames|now left].
    - eapply Go; [exact Th|reflexivity|destruct (moves (PShared f)) as (_ & _ & Mv & _); now apply Mv|discriminate|exact FK| |cbn; auto].
      intros o N G _ S. split; [discriminate|]. split; [reflexivity|]. split; [right; now apply UGuard|now left].
    - eapply Go; [exact Th|reflexivity|destruct (moves (PExcl f)) as (_ & _ & _ & Mv & _); now apply Mv|discriminate|exact FK| |cbn; auto].
      intros o N G _ S. destruct (Fo _ _ _ N S).
    - eapply Go; [exact Th|reflexivity|destruct (moves (PSetIx ix p)) as (_ & _ & _ & _ & Mv & _); now apply (Mv ix p)|discriminate|exact FK| |cbn; auto].
      intros o N G _ S. destruct (Fo _ _ _ N S).
    - (* the write *)
      assert (keyed H (apply_batch b (rc_db k))) as FK'.
      { destruct (R _ _ _ _ _ Th) as (o & _ & _ & [(_ & N & [(r & E)|C])|(_ & _ & Kp)]); [discriminate| |].
        - destruct (Fo _ _ _ N C) as [Wi _]. eapply within_keyed; eauto.
        - destruct Kp as [Kp _]. now apply keyed_put. }
      eapply Go; [exact Th|reflexivity|destruct (moves (PWrite b p)) as (_ & _ & _ & _ & _ & Mv); now apply (Mv b p)|discriminate|exact FK'| |cbn; intros [_ Kp]; exact Kp].
      intros o N G _ S. split; [exact G|]. split; [reflexivity|]. split.
      + left. assert (wlast (PWrite b p)) as Wl; [|exact Wl].
        clear - S. remember (PWrite b p) as q eqn:Eq. clear Eq.
        induction S as [|f S IH|f S IH|f S IH]; [apply prog_wlast|apply IH|apply IH|apply IH].
      + right. intros o2 N2 (_ & _ & Ap). destruct (Fo _ _ _ N S) as [Wi _]. eapply within_keeps; [exact Wi|].
        intros x Wx Rx. exact (proj1 (Ap x) Wx Rx).
    - eapply Go; [exact Th|reflexivity|discriminate|discriminate|exact FK| |cbn; auto].
      intros o N G _ S. split; [exact G|]. split; [reflexivity|]. split; [left; eauto|now left].
    - clear Go. split; [|constructor; [left; auto|exact OI]].
      destruct (R _ _ _ _ _ Th) as (o & A0 & B0 & _).
      constructor; cbn [rc_threads rc_hist rc_ix rc_db rc_next]; auto.
      + intros t' c' e' g2 p2 E. destruct (upd_case (rc_threads k) t RIdle t') as [[-> U]|[Ne U]]; rewrite U in E; [discriminate|].
        destruct (R _ _ _ _ _ E) as (o' & A & B & C). exists o'. split; [apply in_or_app; now left|]. split.
        * intros r' D. in_snoc D; [now apply B in D|]. inversion D; subst c' r'. destruct (I2 _ _ _ _ _ A A0). contradiction.
        * destruct C as [C|(X & Al & Kp)]; [now left|right]. rewrite (Al t) in Th by auto. discriminate.
      + intros c' t' o' A. in_snoc A; [eauto|discriminate].
      + intros c' t1 o1 t2 o2 A B. in_snoc A; [|discriminate]. in_snoc B; [|discriminate]. eapply I2; eauto.
      + intros c' r' A. in_snoc A.
        * apply I3 in A as (t' & o' & A). exists t', o'. apply in_or_app; now left.
        * inversion A; subst. exists t, o. apply in_or_app; now left.
  Qed.

  (** The condition on a history is inherited by its beginnings. *)
  Lemma apart_prefix h x : apart_when_concurrent (h ++ [x]) ->
    (forall c t o, x = Inv c t o -> forall t' o', ~ In (Inv c t' o') h) -> apart_when_concurrent h.
  Proof.
    intros AP Fr c t o c' t' o' A A' N.
    assert (forall c r c' t' o', In (Inv c' t' o') h -> before (h ++ [x]) (Ret c r) (Inv c' t' o') -> before h (Ret c r) (Inv c' t' o')) as Bf.
    { intros c1 r1 c2 t2 o2 A2 B. apply before_snoc_inv in B as [B|[B _]]; [exact B|]. exfalso. eapply Fr; [symmetry; exact B|exact A2]. }
    destruct (AP c t o c' t' o') as [(r & B)|[(r & B)|B]]; auto; try (apply in_or_app; now left).
    - left. eauto.
    - right. left. eauto.
  Qed.

  Theorem apart_orderly E s k : keyed H (r_db s) -> rreach H enc dec E s k -> apart_when_concurrent (rc_hist k) ->
    oreach H enc dec E s k.
  Proof.
    intros Ks R. assert (apart_when_concurrent (rc_hist k) -> oreach H enc dec E s k /\ fi k) as G; [|now intros; apply G].
    induction R as [|k k' R IH Hs En]; intros AP.
    - split; [constructor|]. constructor; cbn; try easy.
    - assert (forall c t o, In (Inv c t o) (rc_hist k) -> c < rc_next k) as Nx.
      { clear - R. induction R as [|k k' R IH Hs En]; [easy|]. destruct Hs; cbn in *; auto; intros c1 t1 o1 A; in_snoc A; try discriminate; auto.
        - apply IH in A. lia.
        - inversion A; subst. lia.
        - eapply IH; eauto. }
      assert (apart_when_concurrent (rc_hist k)) as AP'.
      { destruct Hs; cbn [rc_hist] in AP; auto; (eapply apart_prefix; [exact AP|]); intros c1 t1 o1 E1; try discriminate E1.
        injection E1 as <- <- <-. intros t' o' A. apply Nx in A. lia. }
      destruct (IH AP') as [O F]. destruct (fi_step F Hs AP) as [F' Od]. split; [econstructor; eauto|exact F'].
  Qed.

  Theorem apart_linearizable E s k : keyed H (r_db s) -> rreach H enc dec E s k -> apart_when_concurrent (rc_hist k) ->
    exists s', linearizable (rdb_step H enc dec) s (rc_hist k) s' /\
      ((forall t, rc_threads k t = RIdle) -> r_db s' = rc_db k /\ r_indexed s' = rc_ix k).
  Proof. intros Ks R AP. apply (@orderly_linearizable H enc dec s E). now apply apart_orderly. Qed.
End Apart.
