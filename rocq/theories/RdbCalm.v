(** * RocksDB: calls are linearizable as long as updates do not overlap other calls *)
From Verif Require Import Base OMap Json Types Util Db Rdb Spec MemFacts Conc RdbProg RdbAlone RdbConc RdbLive.

Set Implicit Arguments.

Definition is_get (o : op) : bool := match o with OGet _ => true | _ => false end.

(** In the history [h], whenever a call is invoked while another one has not
    returned, both are [get]s. *)
Definition calm (h : list event) : Prop :=
  forall h1 c t o h2, h = h1 ++ Inv c t o :: h2 ->
  forall c' t' o', In (Inv c' t' o') h1 -> (forall r, ~ In (Ret c' r) h1) -> is_get o = true /\ is_get o' = true.

Lemma calm_prefix h x : calm (h ++ [x]) -> calm h.
Proof.
  intros C h1 c t o h2 -> c' t' o' I N. eapply (C h1 c t o (h2 ++ [x])); eauto. now rewrite <- app_assoc.
Qed.

Section Calm.
  Variable H : list byte -> N.
  Variable enc : json -> bytes.
  Variable dec : bytes -> option json.
  Variable s0 : rstate.
  Notation step := (rdb_step H enc dec).

  (** Programs that neither write nor take guards. *)
  Definition reader (p : prog res) : Prop := rsafe (fun _ _ => True) GNone empty (fun _ => True) p.

  Lemma get_reader e q : reader (prog_of H enc dec e (OGet q)).
  Proof.
    unfold reader. cbn [prog_of]. eapply rsafe_bind with (Q1 := some (fun _ => True) True); auto; [|now cbn].
    eapply f_query; eauto. intros. apply trivial_reads.
  Qed.

  Lemma get_step e q s : snd (step s (e, OGet q)) = s.
  Proof. reflexivity. Qed.

  Definition cur (k : rconfig) (log : list batch) : rstate := RState (rc_db k) (rc_ix k) log.

  Record cm (k : rconfig) (l : list (call renv)) (s' : rstate) (log : list batch) : Prop := {
    m_ex : explains step s0 (rc_hist k) s' l;
    m_run : forall t c e g p, rc_threads k t = Running c e g p -> exists o,
      In (Inv c t o) (rc_hist k) /\ (forall r, ~ In (Ret c r) (rc_hist k)) /\
      In (Call c e o (fst (alone e (cur k log) p))) l;
    m_mode :
      (cur k log = s' /\ forall t c e g p, rc_threads k t = Running c e g p ->
         reader p /\ forall o, In (Inv c t o) (rc_hist k) -> is_get o = true) \/
      (exists t c e g p o, rc_threads k t = Running c e g p /\ snd (alone e (cur k log) p) = s' /\
         In (Inv c t o) (rc_hist k) /\ is_get o = false /\
         forall t', t' <> t -> rc_threads k t' = RIdle);
    m_inv : forall c t o, In (Inv c t o) (rc_hist k) -> c < rc_next k;
    m_inv1 : forall c t o t' o', In (Inv c t o) (rc_hist k) -> In (Inv c t' o') (rc_hist k) -> t = t' /\ o = o';
    m_ret : forall c r, In (Ret c r) (rc_hist k) -> exists t o, In (Inv c t o) (rc_hist k) }.

  Ltac in_snoc H := apply in_app_or in H as [H | [H | []]].

  (** Steps that leave the history alone. *)
  Lemma cm_inner k l s' log t c e g p d ix log' g' p' : cm k l s' log -> rc_threads k t = Running c e g p ->
    alone e (RState d ix log') p' = alone e (cur k log) p ->
    (d = rc_db k /\ ix = rc_ix k /\ log' = log /\ (reader p -> reader p')) \/ ~ reader p ->
    cm (RConfig d ix (upd (rc_threads k) t (Running c e g' p')) (rc_hist k) (rc_next k)) l s' log'.
  Proof.
    intros [X R M I1 I2 I3] Th Al Ro.
    destruct M as [[M1 M2] | (t1 & c1 & e1 & g1 & p1 & o1 & T1 & A1 & N1 & G1 & O1)].
    - destruct Ro as [(-> & -> & -> & Ro)|Ro]; [|destruct (M2 _ _ _ _ _ Th); contradiction].
      constructor; auto; cbn [rc_hist rc_threads].
      + intros t' c' e' g'' p'' E. destruct (upd_case (rc_threads k) t (Running c e g' p') t') as [[-> U]|[Ne U]]; rewrite U in E; [|exact (R _ _ _ _ _ E)].
        inversion E; subst. destruct (R _ _ _ _ _ Th) as (o & A & B & C). exists o. conj; auto.
        unfold cur. cbn [rc_db rc_ix]. now rewrite Al.
      + left. split; [exact M1|]. intros t' c' e' g'' p'' E.
        destruct (upd_case (rc_threads k) t (Running c e g' p') t') as [[-> U]|[Ne U]]; rewrite U in E; [|exact (M2 _ _ _ _ _ E)].
        inversion E; subst. destruct (M2 _ _ _ _ _ Th). auto.
    - assert (t1 = t) as -> by (destruct (Nat.eq_dec t t1) as [|Ne]; [auto|]; rewrite (O1 _ Ne) in Th; discriminate).
      rewrite Th in T1. inversion T1; subst.
      constructor; auto; cbn [rc_hist rc_threads].
      + intros t' c' e' g'' p'' E. destruct (upd_case (rc_threads k) t (Running c1 e1 g' p') t') as [[-> U]|[Ne U]]; rewrite U in E.
        * inversion E; subst. destruct (R _ _ _ _ _ Th) as (o & A & B & C). exists o. conj; auto.
          unfold cur. cbn [rc_db rc_ix]. now rewrite Al.
        * rewrite (O1 _ Ne) in E. discriminate.
      + right. exists t, c1, e1, g', p', o1. conj; auto.
        * apply upd_eq.
        * unfold cur. cbn [rc_db rc_ix]. now rewrite Al.
        * intros t' Ne. destruct (upd_case (rc_threads k) t (Running c1 e1 g' p') t') as [[-> U]|[_ U]]; [easy|]. rewrite U. auto.
  Qed.

  Lemma cm_step k l s' log k' : cm k l s' log -> rstep H enc dec k k' -> calm (rc_hist k') ->
    exists l' s'' log', cm k' l' s'' log'.
  Proof.
    intros K St. destruct St as [k t e o Th|k t c e g f Th|k t c e g f Th NX|k t c e g f Th NX|k t c e g f Th NX NS|k t c e g ix p Th|
                    k t c e g b p Th W|k t c e g b p Th W|k t c e g r Th]; cbn [rc_hist]; intros Ca.
    - (* invoke *)
      pose proof K as [X R M I1 I2 I3].
      assert (forall t' o', ~ In (Inv (rc_next k) t' o') (rc_hist k)) as F1 by (intros t' o' A; apply I1 in A; lia).
      assert (forall r, ~ In (Ret (rc_next k) r) (rc_hist k)) as F2 by (intros r A; apply I3 in A as (t' & o' & A); now apply F1 in A).
      assert (~ In (rc_next k) (map (@c_id _ _ renv) l)) as F3.
      { intros A. apply in_map_iff in A as (x & Ex & A). apply (ex_sound X) in A as [(t' & A) _]. rewrite Ex in A. now apply F1 in A. }
      assert (forall t' c' e' g' p' o', rc_threads k t' = Running c' e' g' p' -> In (Inv c' t' o') (rc_hist k) ->
                is_get o = true /\ is_get o' = true) as Both.
      { intros t' c' e' g' p' o' E A. destruct (R _ _ _ _ _ E) as (o1 & _ & B & _). eapply Ca; [reflexivity|exact A|exact B]. }
      assert (cur k log = s' /\ forall t c e g p, rc_threads k t = Running c e g p -> reader p /\
                forall o, In (Inv c t o) (rc_hist k) -> is_get o = true) as [M1 M2].
      { destruct M as [M|(t1 & c1 & e1 & g1 & p1 & o1 & T1 & _ & N1 & G1 & _)]; [exact M|].
        destruct (Both _ _ _ _ _ _ T1 N1) as [_ B]. congruence. }
      remember (step s' (e, o)) as rs eqn:Er. destruct rs as [r s1].
      pose proof (alone_step H enc dec e s' o) as Al.
      exists (l ++ [Call (rc_next k) e o r]), s1, log. constructor; cbn [rc_hist rc_threads rc_next].
      + destruct X as [X1 X2 X3 X4 X5]. constructor.
        * rewrite map_app. cbn. apply NoDup_snoc; auto.
        * intros c t' o' r' A B. in_snoc B; [|discriminate]. in_snoc A.
          -- destruct (X2 _ _ _ _ A B) as (e' & C). exists e'. apply in_or_app. now left.
          -- inversion A; subst. now apply F2 in B.
        * intros x A. in_snoc A.
          -- destruct (X3 x A) as [(t' & B) C]. split; [exists t'; apply in_or_app; now left|].
             intros r' D. in_snoc D; [auto|discriminate].
          -- subst x. cbn. split; [exists t; apply in_or_app; right; now left|].
             intros r' D. in_snoc D; [now apply F2 in D|discriminate].
        * eapply sequential_snoc; [exact X4|]. cbn. now rewrite <- Er.
        * intros x x' r' t' B A A'. in_snoc A'.
          -- in_snoc A.
             ++ apply before_app_l. apply before_snoc_inv in B as [B|[B _]]; [eauto|].
                inversion B as [[Hn Ht Ho]]. exfalso. apply F3. rewrite <- Hn. now apply in_map.
             ++ subst x. cbn in B. apply before_in in B as [B _]. in_snoc B; [now apply F2 in B|discriminate].
          -- subst x'. in_snoc A; [now apply before_snoc|].
             subst x. cbn in B. apply before_in in B as [B _]. in_snoc B; [now apply F2 in B|discriminate].
      + intros t' c' e' g' p' E.
        destruct (upd_case (rc_threads k) t (Running (rc_next k) e GNone (prog_of H enc dec e o)) t') as [[-> U]|[Ne U]]; rewrite U in E.
        * inversion E; subst c' e' g' p'. exists o. conj.
          -- apply in_or_app. right. now left.
          -- intros r' D. in_snoc D; [now apply F2 in D|discriminate].
          -- apply in_or_app. right. left. f_equal. change (cur _ log) with (cur k log). rewrite M1, Al, <- Er. reflexivity.
        * destruct (R _ _ _ _ _ E) as (o' & A & B & C). exists o'. conj.
          -- apply in_or_app. now left.
          -- intros r' D. in_snoc D; [now apply B in D|discriminate].
          -- apply in_or_app. now left.
      + destruct (is_get o) eqn:G.
        * left. destruct o; try discriminate. pose proof (get_step e q s') as Gs. rewrite <- Er in Gs. cbn in Gs. subst s1.
          split; [exact M1|]. intros t' c' e' g' p' E.
          destruct (upd_case (rc_threads k) t (Running (rc_next k) e GNone (prog_of H enc dec e (OGet q))) t') as [[-> U]|[Ne U]]; rewrite U in E.
          -- inversion E; subst c' e' g' p'. split; [exact (get_reader e q)|]. intros o' A. in_snoc A; [now apply F1 in A|]. now inversion A.
          -- destruct (M2 _ _ _ _ _ E) as [M3 M4]. split; [exact M3|]. intros o' A. in_snoc A; [auto|].
             now inversion A.
        * right. exists t, (rc_next k), e, GNone, (prog_of H enc dec e o), o. conj.
          -- apply upd_eq.
          -- change (cur _ log) with (cur k log). rewrite M1, Al, <- Er. reflexivity.
          -- apply in_or_app. right. now left.
          -- exact G.
          -- intros t' Ne. destruct (upd_case (rc_threads k) t (Running (rc_next k) e GNone (prog_of H enc dec e o)) t') as [[-> _]|[_ U]]; [easy|].
             rewrite U. destruct (rc_threads k t') as [|c' e' g' p'] eqn:E; [reflexivity|].
             destruct (R _ _ _ _ _ E) as (o' & A & _). destruct (Both _ _ _ _ _ _ E A). congruence.
      + intros c t' o' A. in_snoc A; [apply I1 in A; lia|]. inversion A; subst. lia.
      + intros c t1 o1 t2 o2 A B. in_snoc A; in_snoc B.
        * eapply I2; eauto.
        * inversion B; subst. now apply F1 in A.
        * inversion A; subst. now apply F1 in B.
        * inversion A; inversion B; subst. auto.
      + intros c r' A. in_snoc A; [|discriminate]. apply I3 in A as (t' & o' & A). exists t', o'. apply in_or_app; now left.
    - exists l, s', log. eapply cm_inner; eauto. left. conj; auto. cbn. intros Rd. apply (Rd (rc_db k) empty); cbn; auto.
    - exists l, s', log. eapply cm_inner; eauto. left. conj; auto. cbn. intros [_ Rd]. apply (Rd db_empty (rc_ix k)); cbn; auto.
    - exists l, s', log. eapply cm_inner; eauto.
    - exists l, s', log. eapply cm_inner; eauto.
    - exists l, s', log. eapply cm_inner; eauto.
    - exists l, s', (log ++ [b]). eapply cm_inner; eauto. cbn. now rewrite W.
    - exists l, s', log. eapply cm_inner; eauto. cbn. now rewrite W.
    - (* return *)
      pose proof K as [X R M I1 I2 I3]. destruct (R _ _ _ _ _ Th) as (o & A0 & B0 & C0). cbn in C0.
      assert (forall t' c' e' g' p', t' <> t -> rc_threads k t' = Running c' e' g' p' -> c' <> c) as Other.
      { intros t' c' e' g' p' Ne E ->. destruct (R _ _ _ _ _ E) as (o' & A & _). destruct (I2 _ _ _ _ _ A A0). contradiction. }
      exists l, s', log. constructor; cbn [rc_hist rc_threads rc_next].
      + destruct X as [X1 X2 X3 X4 X5]. constructor; auto.
        * intros c' t' o' r' A B. in_snoc A; [|discriminate]. in_snoc B; [eauto|].
          inversion B; subst. exists e. destruct (I2 _ _ _ _ _ A A0) as [-> ->]. exact C0.
        * intros x A. destruct (X3 x A) as [(t' & B) C]. split; [exists t'; apply in_or_app; now left|].
          intros r' D. in_snoc D; [auto|]. inversion D; subst.
          assert (x = Call (c_id x) e o r') as -> by (eapply ex_id; eauto). reflexivity.
        * intros x x' r' t' B A A'. apply before_snoc_inv in B as [B|[B _]]; [eauto|discriminate].
      + intros t' c' e' g' p' E. destruct (upd_case (rc_threads k) t RIdle t') as [[-> U]|[Ne U]]; rewrite U in E; [discriminate|].
        destruct (R _ _ _ _ _ E) as (o' & A & B & C). exists o'. conj.
        * apply in_or_app. now left.
        * intros r' D. in_snoc D; [now apply B in D|]. inversion D; subst. now apply (Other _ _ _ _ _ Ne E).
        * exact C.
      + left. destruct M as [[M1 M2]|(t1 & c1 & e1 & g1 & p1 & o1 & T1 & A1 & N1 & G1 & O1)].
        * split; [exact M1|]. intros t' c' e' g' p' E. destruct (upd_case (rc_threads k) t RIdle t') as [[-> U]|[Ne U]]; rewrite U in E; [discriminate|].
          destruct (M2 _ _ _ _ _ E) as [M3 M4]. split; [exact M3|]. intros o' A. in_snoc A; [auto|discriminate].
        * assert (t1 = t) as -> by (destruct (Nat.eq_dec t t1) as [|Ne]; [auto|]; rewrite (O1 _ Ne) in Th; discriminate).
          rewrite Th in T1. inversion T1; subst. split; [reflexivity|].
          intros t' c' e' g' p' E. destruct (upd_case (rc_threads k) t RIdle t') as [[-> U]|[Ne U]]; rewrite U in E; [discriminate|].
          rewrite (O1 _ Ne) in E. discriminate.
      + intros c' t' o' A. in_snoc A; [eauto|discriminate].
      + intros c' t1 o1 t2 o2 A B. in_snoc A; [|discriminate]. in_snoc B; [|discriminate]. eapply I2; eauto.
      + intros c' r' A. in_snoc A.
        * apply I3 in A as (t' & o' & A). exists t', o'. apply in_or_app; now left.
        * inversion A; subst. exists t, o. apply in_or_app; now left.
  Qed.

  Lemma calm_step_back k k' : rstep H enc dec k k' -> calm (rc_hist k') -> calm (rc_hist k).
  Proof. intros St C. destruct St; cbn [rc_hist] in *; eauto using calm_prefix. Qed.

  Theorem calm_linearizable E k : rreach H enc dec E s0 k -> calm (rc_hist k) ->
    exists s', linearizable step s0 (rc_hist k) s' /\
      ((forall t, rc_threads k t = RIdle) -> r_db s' = rc_db k /\ r_indexed s' = rc_ix k).
  Proof.
    assert (rreach H enc dec E s0 k -> calm (rc_hist k) -> exists l s' log, cm k l s' log) as G.
    { induction 1 as [|k k' R IH Hs En]; intros C.
      - exists [], s0, (r_log s0). constructor; cbn; try easy.
        + constructor; cbn; auto; try easy. constructor.
        + left. split; [now destruct s0|easy].
      - destruct (IH (calm_step_back Hs C)) as (l & s' & log & K). eapply cm_step; eauto. }
    intros R C. destruct (G R C) as (l & s' & log & K). exists s'. split; [exists l; apply K|].
    intros Id. destruct (m_mode K) as [[M _]|(t1 & c1 & e1 & g1 & p1 & o1 & T1 & _)].
    - rewrite <- M. auto.
    - rewrite Id in T1. discriminate.
  Qed.
End Calm.
