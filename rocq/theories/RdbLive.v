(** * No deadlock between concurrent calls on the RocksDB datastore *)
From Verif Require Import Base OMap Json Types Util Db Rdb Spec MemFacts Conc RdbProg RdbConc.

Set Implicit Arguments.

(** A program requests a guard only while it holds none. *)
Fixpoint lk {A} (e : renv) (g : guard) (p : prog A) : Prop :=
  match p with
  | PRet _ => True
  | PDb k => forall d, lk e g (k d)
  | PIx k => g = GNone /\ forall ix, lk e g (k ix)
  | PShared k => g = GNone /\ forall ix, lk e GShared (k ix)
  | PExcl k => g = GNone /\ forall ix, lk e GExcl (k ix)
  | PSetIx _ k => g = GExcl /\ lk e g k
  | PWrite _ k => wok e = true -> lk e g k
  end.

Lemma safe_lk {A} e Q (p : prog A) : forall g ix, safe (fun _ _ => True) e g ix Q p -> lk e g p.
Proof.
  induction p as [x|k IH|k IH|k IH|k IH|ix2 k IH|b k IH]; intros g ix0 R; cbn in *; auto.
  - intros d. eapply IH. apply (R d ix0); auto. destruct g; cbn; auto.
  - destruct R as [-> R]. split; [reflexivity|]. intros ix. eapply IH. apply (R db_empty ix I I).
  - destruct R as [-> R]. split; [reflexivity|]. intros ix. eapply IH. apply (R db_empty ix I).
  - destruct R as [-> R]. split; [reflexivity|]. intros ix. eapply IH. apply (R db_empty ix I).
  - destruct R as (-> & _ & R). split; [reflexivity|]. eapply IH. exact R.
  - destruct R as [R _]. intros W. eapply IH. apply R, W.
Qed.

Section Live.
  Variable H : list byte -> N.
  Variable enc : json -> bytes.
  Variable dec : bytes -> option json.

  Lemma trivial_fine {A} (x : outcome A) : fine (fun _ => True) True x.
  Proof. destruct x; exact I. Qed.
  Lemma trivial_fines {A} (l : list (outcome A)) : Forall (fine (fun _ => True) True) l.
  Proof. apply Forall_forall. intros. apply trivial_fine. Qed.
  Lemma trivial_reads d : reads_fine H dec (fun _ => True) True d.
  Proof. split; intros; auto using trivial_fines, trivial_fine. Qed.

  Lemma prog_lk e o : lk e GNone (prog_of H enc dec e o).
  Proof.
    eapply safe_lk with (ix := empty). eapply call_safe with (P := fun _ => True) (okerr := fun _ _ => True) (okpanic := True); auto.
    - intros. apply trivial_reads.
    - destruct o; cbn; auto. apply Forall_forall. intros [] _; exact I.
  Qed.

  (** The invariant: guards are exclusive, programs request guards only while
      holding none, and finitely many threads are active. *)
  Record live (k : rconfig) : Prop := {
    lv_lk : forall t c e g p, rc_threads k t = Running c e g p -> lk e g p;
    lv_fin : exists n, forall t, n <= t -> rc_threads k t = RIdle }.

  Lemma live_upd th t c e g p g' p' : rc_threads th t = Running c e g p -> live th ->
    (lk e g p -> lk e g' p') -> forall db ix h n, live (RConfig db ix (upd (rc_threads th) t (Running c e g' p')) h n).
  Proof.
    intros Th [L [m F]] Hl db ix h n. split; cbn.
    - intros t' c' e' g'' p'' E. unfold upd in E. destruct (Nat.eqb t' t); [|eauto]. inversion E; subst. eauto.
    - exists m. intros t' Ht. unfold upd. destruct (Nat.eqb_spec t' t) as [->|]; [|auto].
      rewrite F in Th by assumption. discriminate.
  Qed.

  Lemma live_step k k' : live k -> rstep H enc dec k k' -> live k'.
  Proof.
    intros L St. destruct St as [k t e o Th|k t c e g f Th|k t c e g f Th NX|k t c e g f Th NX|k t c e g f Th NX NS|k t c e g ix p Th|
                    k t c e g b p Th W|k t c e g b p Th W|k t c e g r Th].
    - destruct L as [L [n F]]. split; cbn.
      + intros t' c' e' g' p' E. unfold upd in E. destruct (Nat.eqb t' t); [|eauto]. inversion E; subst. apply prog_lk.
      + exists (n + S t). intros t' Ht. unfold upd. destruct (Nat.eqb_spec t' t); [lia|]. apply F. lia.
    - eapply live_upd; [eassumption|assumption|cbn; auto].
    - eapply live_upd; [eassumption|assumption|cbn; now intros [_ ?]].
    - eapply live_upd; [eassumption|assumption|cbn; now intros [_ ?]].
    - eapply live_upd; [eassumption|assumption|cbn; now intros [_ ?]].
    - eapply live_upd; [eassumption|assumption|cbn; now intros [_ ?]].
    - eapply live_upd; [eassumption|assumption|cbn; auto].
    - eapply live_upd; [eassumption|assumption|cbn; auto].
    - destruct L as [L [n F]]. split; cbn.
      + intros t' c' e' g' p' E. unfold upd in E. destruct (Nat.eqb t' t); [discriminate|eauto].
      + exists n. intros t' Ht. unfold upd. destruct (Nat.eqb t' t); auto.
  Qed.

  Lemma live_reach E s k : rreach H enc dec E s k -> live k.
  Proof.
    induction 1 as [|k k' R IH Hs En]; [|eapply live_step; eauto].
    split; cbn; [easy|]. exists 0. auto.
  Qed.

  (** Steps that start no new call. *)
  Inductive finishing : rconfig -> rconfig -> Prop :=
  | Fin0 k : finishing k k
  | FinS k k1 k' : rstep H enc dec k k1 -> rc_next k1 = rc_next k -> finishing k1 k' -> finishing k k'.

  Lemma finishing_trans k1 k2 k3 : finishing k1 k2 -> finishing k2 k3 -> finishing k1 k3.
  Proof. induction 1; auto. intros. econstructor; eauto. Qed.

  (** A thread that holds a guard, or runs while nobody holds one, can finish
      whatever the others wait for. *)
  Lemma finish_one p : forall k t c e g, rc_threads k t = Running c e g p -> lk e g p ->
    (g = GNone -> forall t', ~ holds (rc_threads k t') GExcl /\ ~ holds (rc_threads k t') GShared) ->
    exists k', finishing k k' /\ rc_threads k' t = RIdle /\ forall t', t' <> t -> rc_threads k' t' = rc_threads k t'.
  Proof.
    assert (forall k t k1 k', rstep H enc dec k k1 -> rc_next k1 = rc_next k ->
              (forall t', t' <> t -> rc_threads k1 t' = rc_threads k t') ->
              finishing k1 k' /\ rc_threads k' t = RIdle /\ (forall t', t' <> t -> rc_threads k' t' = rc_threads k1 t') ->
              finishing k k' /\ rc_threads k' t = RIdle /\ (forall t', t' <> t -> rc_threads k' t' = rc_threads k t')) as Go.
    { intros k t k1 k' Hs Hn Ho (F & I0 & O). conj; auto; [econstructor; eauto|].
      intros t' Ne. rewrite O by assumption. auto. }
    assert (forall th t (x : rthread) t', t' <> t -> upd th t x t' = th t') as Ot.
    { intros th t x t' Ne. unfold upd. destruct (Nat.eqb_spec t' t); congruence. }
    assert (forall th t c e p, (forall t', ~ holds (th t') GExcl /\ ~ holds (th t') GShared) ->
              forall t', ~ holds (upd th t (Running c e GNone p) t') GExcl /\ ~ holds (upd th t (Running c e GNone p) t') GShared) as Nh.
    { intros th t c e p0 Hh t'. unfold upd. destruct (Nat.eqb t' t); [|auto].
      split; intros (? & ? & ? & X); inversion X. }
    induction p as [x|f IH|f IH|f IH|f IH|ix f IH|b f IH]; intros k t c e g Th L NG.
    - eexists. eapply Go; [eapply RReturn; eauto|reflexivity| |]; cbn; auto.
      conj; [constructor|apply upd_eq|auto].
    - destruct (IH (rc_db k) (RConfig (rc_db k) (rc_ix k) (upd (rc_threads k) t (Running c e g (f (rc_db k)))) (rc_hist k) (rc_next k)) t c e g) as (k' & K);
        cbn; auto; [apply upd_eq|intros ->; auto|].
      exists k'. eapply Go; [eapply RRead; eauto|reflexivity| |exact K]; cbn; auto.
    - cbn in L. destruct L as [-> L].
      destruct (IH (rc_ix k) (RConfig (rc_db k) (rc_ix k) (upd (rc_threads k) t (Running c e GNone (f (rc_ix k)))) (rc_hist k) (rc_next k)) t c e GNone) as (k' & K);
        cbn; auto; [apply upd_eq|].
      exists k'. eapply Go; [eapply RIndexed; eauto; apply NG; auto|reflexivity| |exact K]; cbn; auto.
    - cbn in L. destruct L as [-> L].
      destruct (IH (rc_ix k) (RConfig (rc_db k) (rc_ix k) (upd (rc_threads k) t (Running c e GShared (f (rc_ix k)))) (rc_hist k) (rc_next k)) t c e GShared) as (k' & K);
        cbn; auto; [apply upd_eq|discriminate|].
      exists k'. eapply Go; [eapply RShared; eauto; apply NG; auto|reflexivity| |exact K]; cbn; auto.
    - cbn in L. destruct L as [-> L].
      destruct (IH (rc_ix k) (RConfig (rc_db k) (rc_ix k) (upd (rc_threads k) t (Running c e GExcl (f (rc_ix k)))) (rc_hist k) (rc_next k)) t c e GExcl) as (k' & K);
        cbn; auto; [apply upd_eq|discriminate|].
      exists k'. eapply Go; [eapply RExcl; eauto; apply NG; auto|reflexivity| |exact K]; cbn; auto.
    - cbn in L. destruct L as [-> L].
      destruct (IH (RConfig (rc_db k) ix (upd (rc_threads k) t (Running c e GExcl f)) (rc_hist k) (rc_next k)) t c e GExcl) as (k' & K);
        cbn; auto; [apply upd_eq|discriminate|].
      exists k'. eapply Go; [eapply RSetIx; eauto|reflexivity| |exact K]; cbn; auto.
    - cbn in L. destruct (wok e) eqn:W.
      + destruct (IH (RConfig (apply_batch b (rc_db k)) (rc_ix k) (upd (rc_threads k) t (Running c e g f)) (rc_hist k) (rc_next k)) t c e g) as (k' & K);
          cbn; auto; [apply upd_eq|intros ->; auto|].
        exists k'. eapply Go; [eapply RWrite; eauto|reflexivity| |exact K]; cbn; auto.
      + eexists. eapply Go; [eapply RFail; eauto|reflexivity|cbn; auto|].
        eapply Go; [eapply RReturn; cbn; apply upd_eq|reflexivity|cbn; auto|].
        conj; [constructor|cbn; apply upd_eq|auto].
  Qed.

  (** From every reachable configuration the calls in progress can all return. *)
  Theorem can_finish E s k : rreach H enc dec E s k -> exists k', finishing k k' /\ forall t, rc_threads k' t = RIdle.
  Proof.
    intros R. apply live_reach in R. destruct R as [L [n F]].
    assert (forall k1 k2, (forall t c e g p, rc_threads k1 t = Running c e g p -> lk e g p) ->
       (forall t, rc_threads k2 t = RIdle \/ rc_threads k2 t = rc_threads k1 t) ->
       (forall t c e g p, rc_threads k2 t = Running c e g p -> lk e g p)) as Keep.
    { intros k1 k2 L1 O t c e g p E1. destruct (O t) as [O1|O1]; rewrite O1 in E1; [discriminate|eauto]. }
    (* first those that hold a guard *)
    assert (exists k1, finishing k k1 /\
              (forall t, rc_threads k1 t = RIdle \/ rc_threads k1 t = rc_threads k t) /\
              (forall t, t < n -> ~ holds (rc_threads k1 t) GExcl /\ ~ holds (rc_threads k1 t) GShared)) as (k1 & F1 & O1 & N1).
    { clear F. induction n as [|m IH]; [exists k; conj; auto using Fin0; lia|].
      destruct IH as (k1 & F1 & O1 & N1).
      assert (forall t c e g p, rc_threads k1 t = Running c e g p -> lk e g p) as L1 by eauto.
      destruct (rc_threads k1 m) as [|c e g p] eqn:Th; [|destruct g].
      - exists k1. conj; auto. intros t Ht. destruct (Nat.eq_dec t m) as [->|]; [|apply N1; lia].
        rewrite Th. split; apply holds_idle.
      - exists k1. conj; auto. intros t Ht. destruct (Nat.eq_dec t m) as [->|]; [|apply N1; lia].
        rewrite Th. split; rewrite holds_running; discriminate.
      - destruct (@finish_one _ k1 m c e GShared Th (L1 _ _ _ _ _ Th)) as (k2 & F2 & I2 & O2); [discriminate|].
        exists k2. conj; [eapply finishing_trans; eauto| |].
        + intros t. destruct (Nat.eq_dec t m) as [->|Ne]; [auto|]. rewrite O2 by assumption. auto.
        + intros t Ht. destruct (Nat.eq_dec t m) as [->|]; [rewrite I2; split; apply holds_idle|]. rewrite O2 by assumption. apply N1; lia.
      - destruct (@finish_one _ k1 m c e GExcl Th (L1 _ _ _ _ _ Th)) as (k2 & F2 & I2 & O2); [discriminate|].
        exists k2. conj; [eapply finishing_trans; eauto| |].
        + intros t. destruct (Nat.eq_dec t m) as [->|Ne]; [auto|]. rewrite O2 by assumption. auto.
        + intros t Ht. destruct (Nat.eq_dec t m) as [->|]; [rewrite I2; split; apply holds_idle|]. rewrite O2 by assumption. apply N1; lia. }
    assert (forall t, ~ holds (rc_threads k1 t) GExcl /\ ~ holds (rc_threads k1 t) GShared) as N2.
    { intros t. destruct (Nat.lt_ge_cases t n) as [Ht|Ht]; [auto|].
      destruct (O1 t) as [->| ->]; [|rewrite F by assumption]; split; apply holds_idle. }
    (* then the others, one after the other *)
    assert (forall m, exists k2, finishing k1 k2 /\
              (forall t, rc_threads k2 t = RIdle \/ rc_threads k2 t = rc_threads k1 t) /\
              (forall t, t < m -> rc_threads k2 t = RIdle)) as Rest.
    { induction m as [|m IH]; [exists k1; conj; auto using Fin0; lia|].
      destruct IH as (k2 & F2 & O2 & I2).
      destruct (rc_threads k2 m) as [|c e g p] eqn:Th.
      - exists k2. conj; auto. intros t Ht. destruct (Nat.eq_dec t m) as [->|]; [exact Th|]. apply I2. lia.
      - assert (lk e g p) as Lp.
        { destruct (O2 m) as [O|O]; rewrite Th in O; [discriminate|]. destruct (O1 m) as [O'|O']; rewrite O' in O; [discriminate|]. eauto. }
        destruct (@finish_one _ k2 m c e g Th Lp) as (k3 & F3 & I3 & O3).
        { intros _ t'. destruct (O2 t') as [->| ->]; [split; apply holds_idle|apply N2]. }
        exists k3. conj; [eapply finishing_trans; eauto| |].
        + intros t. destruct (Nat.eq_dec t m) as [->|Ne]; [auto|]. rewrite O3 by assumption. auto.
        + intros t Ht. destruct (Nat.eq_dec t m) as [->|]; [exact I3|]. rewrite O3 by assumption. apply I2; lia. }
    destruct (Rest n) as (k2 & F2 & O2 & I2). exists k2. split; [eapply finishing_trans; eauto|].
    intros t. destruct (Nat.lt_ge_cases t n) as [Ht|Ht]; [auto|].
    destruct (O2 t) as [->| ->]; [reflexivity|]. destruct (O1 t) as [->| ->]; auto.
  Qed.
End Live.
