(** * Concurrent calls of an object that can be killed

    Conc.v's object behind one lock, whose process can be killed at any moment
    and started again: the threads that are in a call then are gone and their
    calls never return.  Generic; PropsOutage.v uses it for servers. *)
From Verif Require Import Base MemFacts Conc.

Set Implicit Arguments.
Local Open Scope list_scope.

Section Killable.
  Variables (Op Kill Res St Env : Type).
  (** The sequential behaviour: of a call, and of a kill with the new start. *)
  Variable step : St -> Env * (Op + Kill) -> Res * St.
  (** Calls that do without the lock ([StPass] of Conc.v), by the state. *)
  Variable passes : St -> Op -> Res -> Prop.
  Hypothesis passes_ok : forall s o r e, passes s o r -> step s (e, inl o) = (r, s).
  (** The ways to be killed while a call holds the lock, or none does. *)
  Variable kills : option Op -> Kill -> Prop.
  Variable init : St.

  (** As [tstate] of Conc.v; [KDead]: the thread's process was killed. *)
  Inductive kthread :=
  | KIdle | KWaiting (c : nat) (o : Op) | KInside (c : nat) (o : Op) (s : St) | KLeaving (c : nat) (r : Res) | KDead.
  Record kconf := KConf {
    k_shared : St;
    k_owner : option nat;
    k_threads : nat -> kthread;
    k_hist : list (gevent (Op + Kill) Res);
    k_next : nat }.
  Definition kconf0 : kconf := KConf init None (fun _ => KIdle) [] 0.

  (** The call that holds the lock. *)
  Definition inside (k : kconf) : option Op :=
    match k_owner k with
    | Some t => match k_threads k t with KInside _ o _ => Some o | _ => None end
    | None => None
    end.

  (** The first five as in Conc.v.  [KKill]: whoever kills the process and starts
      it again (thread [t]) is idle; a kill is one event and counts as a call of
      [t] that returns at once. *)
  Inductive kstep : kconf -> kconf -> Prop :=
  | KInvoke : forall k t o, k_threads k t = KIdle ->
      kstep k (KConf (k_shared k) (k_owner k) (upd (k_threads k) t (KWaiting (k_next k) o))
                     (k_hist k ++ [Inv (k_next k) t (inl o)]) (S (k_next k)))
  | KAcquire : forall k t c o, k_threads k t = KWaiting c o -> k_owner k = None ->
      kstep k (KConf (k_shared k) (Some t) (upd (k_threads k) t (KInside c o (k_shared k))) (k_hist k) (k_next k))
  | KRelease : forall k t c o s e, k_threads k t = KInside c o s ->
      kstep k (KConf (snd (step s (e, inl o))) None (upd (k_threads k) t (KLeaving c (fst (step s (e, inl o))))) (k_hist k) (k_next k))
  | KPass : forall k t c o (e : Env) r, k_threads k t = KWaiting c o -> passes (k_shared k) o r ->
      kstep k (KConf (k_shared k) (k_owner k) (upd (k_threads k) t (KLeaving c r)) (k_hist k) (k_next k))
  | KReturn : forall k t c r, k_threads k t = KLeaving c r ->
      kstep k (KConf (k_shared k) (k_owner k) (upd (k_threads k) t KIdle) (k_hist k ++ [Ret c r]) (k_next k))
  | KKill : forall k t w e, k_threads k t = KIdle -> kills (inside k) w ->
      kstep k (KConf (snd (step (k_shared k) (e, inr w))) None (fun t' => match k_threads k t' with KIdle => KIdle | _ => KDead end)
                     (k_hist k ++ [Inv (k_next k) t (inr w)] ++ [Ret (k_next k) (fst (step (k_shared k) (e, inr w)))]) (S (k_next k))).
  Inductive kreach : kconf -> Prop :=
  | KReach0 : kreach kconf0
  | KReachS : forall k k', kreach k -> kstep k k' -> kreach k'.

  (** ** Specification

      The calls [l], one after the other, explain the history ([explains] of
      Conc.v: results, effects, real time); and a call that was in progress when
      the process was killed is never answered, and takes effect before the kill
      or not at all. *)
  Record explains_kills (h : list (gevent (Op + Kill) Res)) (s : St) (l : list (gcall (Op + Kill) Res Env)) : Prop := {
    ek_explains : explains step init h s l;
    ek_unanswered : forall c t o d t' w r, before h (Inv c t (inl o)) (Inv d t' (inr w)) -> In (Ret c r) h ->
      before h (Ret c r) (Inv d t' (inr w));
    ek_cut : forall x y t t' w, In x l -> In y l -> c_op y = inr w ->
      before h (Inv (c_id x) t (c_op x)) (Inv (c_id y) t' (c_op y)) -> before l x y }.

  (** ** Proof: such a machine does nothing that Conc.v's cannot do *)

  Definition same_thread (x : kthread) (y : tstate (Op + Kill) Res St) : Prop :=
    match x with
    | KIdle => y = Idle
    | KWaiting c o | KInside c o _ => y = Waiting c (inl o)
    | KLeaving c r => y = Leaving c r
    | KDead => True
    end.
  Definition live (x : kthread) (c : nat) : Prop :=
    (exists o, x = KWaiting c o) \/ (exists o s, x = KInside c o s) \/ (exists r, x = KLeaving c r).

  Record sim (k : kconf) (j : config (Op + Kill) Res St) (l : list (gcall (Op + Kill) Res Env)) : Prop := {
    m_inv : inv step init j l;
    m_shared : shared j = k_shared k;
    m_owner : owner j = None;
    m_hist : hist j = k_hist k;
    m_next : next j = k_next k;
    m_threads : forall t, same_thread (k_threads k t) (threads j t);
    m_inside : forall t c o s, k_threads k t = KInside c o s -> s = k_shared k /\ k_owner k = Some t;
    m_order : forall c t o d t' o', before (k_hist k) (Inv c t o) (Inv d t' o') -> c < d;
    m_live : forall t c d t' w, live (k_threads k t) c -> In (Inv d t' (inr w)) (k_hist k) -> d < c;
    m_ret : forall c r d t' w, In (Ret c r) (k_hist k) -> In (Inv d t' (inr w)) (k_hist k) -> c < d -> before (k_hist k) (Ret c r) (Inv d t' (inr w));
    m_cut : forall x y w, In x l -> In y l -> c_op y = inr w -> c_id x < c_id y -> before l x y }.

  Lemma sim0 : sim kconf0 (config0 _ _ init) [].
  Proof.
    constructor; cbn; try easy; [apply inv0|].
    intros c t o d t' o' (a & b & x & E). destruct a; discriminate.
  Qed.

  Lemma upd_upd {A} (f : nat -> A) t x y t' : upd (upd f t x) t y t' = upd f t y t'.
  Proof. unfold upd. destruct (Nat.eqb t' t); reflexivity. Qed.
  Lemma upd_other {A} (f : nat -> A) t x t' : t' <> t -> upd f t x t' = f t'.
  Proof. intros N. unfold upd. destruct (Nat.eqb_spec t' t); [easy|reflexivity]. Qed.

  (** A waiting thread goes through the lock in one go. *)
  Lemma through j l t c o e : inv step init j l -> owner j = None -> threads j t = Waiting c o ->
    exists j' e', inv step init j' (l ++ [Call c e' o (fst (step (shared j) (e, o)))]) /\ shared j' = snd (step (shared j) (e, o)) /\ owner j' = None /\
      hist j' = hist j /\ next j' = next j /\ threads j' t = Leaving c (fst (step (shared j) (e, o))) /\ forall t', t' <> t -> threads j' t' = threads j t'.
  Proof.
    intros I O T.
    pose proof (StAcquire (Env := Env) step j t T O) as S1.
    destruct (inv_step I S1) as (l1 & I1 & [-> |(t1 & c1 & o1 & e1 & r1 & X & Y & _)]).
    2:{ cbn [threads] in X. destruct (upd_case (threads j) t (Inside c o (shared j)) t1) as [[-> U]|[Ne U]]; rewrite U in X; [discriminate|].
        now elim (Y r1). }
    match type of I1 with inv _ _ ?jx _ => set (j1 := jx) in * end.
    assert (threads j1 t = Inside c o (shared j)) as T1 by (apply upd_eq).
    pose proof (StRelease step j1 t e T1) as S2.
    destruct (inv_step I1 S2) as (l2 & I2 & [-> |(t1 & c1 & o1 & e1 & r1 & X & Y & ->)]).
    - exfalso.
      destruct (i_out I2 t (c := c) (r := fst (step (shared j) (e, o)))) as (_ & e' & o' & A & _); [cbn [threads]; apply upd_eq|].
      destruct (i_wait I t T) as (_ & _ & N). apply N. apply in_map_iff. eexists. split; [|exact A]. reflexivity.
    - cbn [threads] in X. destruct (upd_case (threads j1) t (Leaving c (fst (step (shared j) (e, o)))) t1) as [[-> U]|[Ne U]]; rewrite U in X.
      2:{ now elim (Y r1). }
      inversion X; subst c1 r1.
      assert (o1 = o) as ->.
      { destruct (ex_sound (i_ex I2) (Call c e1 o1 (fst (step (shared j) (e, o))))) as [(t2 & A) _]; [apply in_or_app; right; now left|].
        cbn in A. destruct (i_wait I t T) as (B & _). destruct (i_inv1 I _ _ _ _ _ A B) as [_ ?]. assumption. }
      eexists. exists e1. split; [exact I2|]. conj; try reflexivity.
      + cbn [threads]. apply upd_eq.
      + intros t' Ne. cbn [threads]. unfold j1. cbn [threads]. rewrite upd_upd. now apply upd_other.
  Qed.

  Lemma before_cut {A} (l : list A) x y : In x l -> before (l ++ [y]) x y.
  Proof. apply before_snoc. Qed.

  Ltac thr t t' := destruct (Nat.eq_dec t' t) as [->|?]; [rewrite ?upd_eq in *|rewrite ?upd_other in * by assumption].

  Lemma sim_step k j l k' : sim k j l -> kstep k k' -> exists j' l', sim k' j' l'.
  Proof.
    intros M Hst. destruct M as [I Sh Ow Hi Ne Th Ins Ord Liv Rt Cut]. destruct Hst as [k t o T|k t c o T O|k t c o s e T|k t c o e r T P|k t c r T|k t w e T W].
    - (* invoke *)
      pose proof (Th t) as Tt. rewrite T in Tt. cbn in Tt.
      pose proof (StInvoke (Env := Env) step j t (inl o) Tt) as S1.
      destruct (inv_step I S1) as (l1 & I1 & [-> |(t1 & c1 & o1 & e1 & r1 & X & Y & _)]).
      2:{ cbn [threads] in X. thr t t1; [discriminate|now elim (Y r1)]. }
      eexists. exists l. constructor; cbn [k_shared k_owner k_threads k_hist k_next]; [exact I1|..]; cbn [shared owner hist next threads]; auto.
      + now rewrite Hi, Ne.
      + intros t'. thr t t'; [cbn; now rewrite Ne|apply Th].
      + intros t' c o' s. thr t t'; [discriminate|apply Ins].
      + intros c t1 o1 d t2 o2 B. apply before_snoc_inv in B as [B|[B B']]; [eauto|]. inversion B; subst. rewrite <- Ne, <- Hi in *. eapply (i_inv I); eauto.
      + intros t' c d t2 w Lv Hin. apply in_app_or in Hin as [Hin|[Hin|[]]]; [|discriminate].
        thr t t'; [|eauto]. destruct Lv as [(? & E)|[(? & ? & E)|(? & E)]]; inversion E; subst. rewrite <- Hi in Hin. rewrite <- Ne. eapply (i_inv I); eauto.
      + intros c r d t2 w R Hin L. apply in_app_or in Hin as [Hin|[Hin|[]]]; [|discriminate]. apply in_app_or in R as [R|[R|[]]]; [|discriminate].
        apply before_app_l. eauto.
    - (* acquire *)
      exists j, l. constructor; cbn [k_shared k_owner k_threads k_hist k_next]; auto.
      + intros t'. thr t t'; [|apply Th]. pose proof (Th t) as Tt. rewrite T in Tt. exact Tt.
      + intros t' c' o' s. thr t t'; [intros E; inversion E; auto|]. intros E. apply Ins in E as [_ E]. congruence.
      + intros t' c' d t2 w Lv. thr t t'; [|eauto]. apply (Liv t). destruct Lv as [(? & E)|[(? & ? & E)|(? & E)]]; inversion E; subst. left. eauto.
    - (* release *)
      destruct (Ins _ _ _ _ T) as [-> Ot]. pose proof (Th t) as Tt. rewrite T in Tt. cbn in Tt.
      destruct (through t e I Ow Tt) as (j' & e' & I' & E1 & E2 & E3 & E4 & E5 & E6). rewrite Sh in *.
      exists j'. eexists. constructor; cbn [k_shared k_owner k_threads k_hist k_next]; [exact I'|..]; try congruence; auto.
      + intros t'. thr t t'; [cbn; now rewrite E5|]. rewrite E6 by assumption. apply Th.
      + intros t' c' o' s. thr t t'; [discriminate|]. intros E. apply Ins in E as [_ E]. congruence.
      + intros t' c' d t2 w Lv. thr t t'; [|eauto]. apply (Liv t). destruct Lv as [(? & E)|[(? & ? & E)|(? & E)]]; inversion E; subst. right; left. eauto.
      + intros x y w Hx Hy K Lt. apply in_app_or in Hx as [Hx|[<-|[]]].
        * apply in_app_or in Hy as [Hy|[<-|[]]]; [apply before_app_l; eauto|now apply before_snoc].
        * apply in_app_or in Hy as [Hy|[<-|[]]]; [|cbn in Lt; lia]. exfalso. cbn [c_id] in Lt.
          destruct (ex_sound (i_ex I) y Hy) as [(t2 & A) _]. rewrite K, Hi in A.
          assert (c_id y < c); [|lia]. eapply Liv; [|exact A]. rewrite T. right; left. eauto.
    - (* pass *)
      pose proof (Th t) as Tt. rewrite T in Tt. cbn in Tt.
      pose proof (passes_ok e P) as Pe.
      destruct (through t e I Ow Tt) as (j' & e' & I' & E1 & E2 & E3 & E4 & E5 & E6). rewrite Sh, Pe in *. cbn [fst snd] in *.
      exists j'. eexists. constructor; cbn [k_shared k_owner k_threads k_hist k_next]; [exact I'|..]; try congruence; auto.
      + intros t'. thr t t'; [cbn; now rewrite E5|]. rewrite E6 by assumption. apply Th.
      + intros t' c' o' s. thr t t'; [discriminate|]. apply Ins.
      + intros t' c' d t2 w Lv. thr t t'; [|eauto]. apply (Liv t). destruct Lv as [(? & E)|[(? & ? & E)|(? & E)]]; inversion E; subst. left. eauto.
      + intros x y w Hx Hy K Lt. apply in_app_or in Hx as [Hx|[<-|[]]].
        * apply in_app_or in Hy as [Hy|[<-|[]]]; [apply before_app_l; eauto|now apply before_snoc].
        * apply in_app_or in Hy as [Hy|[<-|[]]]; [|cbn in Lt; lia]. exfalso. cbn [c_id] in Lt.
          destruct (ex_sound (i_ex I) y Hy) as [(t2 & A) _]. rewrite K, Hi in A.
          assert (c_id y < c); [|lia]. eapply Liv; [|exact A]. rewrite T. left. eauto.
    - (* return *)
      pose proof (Th t) as Tt. rewrite T in Tt. cbn in Tt.
      pose proof (StReturn (Env := Env) step j t Tt) as S1.
      destruct (inv_step I S1) as (l1 & I1 & [-> |(t1 & c1 & o1 & e1 & r1 & X & Y & _)]).
      2:{ cbn [threads] in X. thr t t1; [discriminate|now elim (Y r1)]. }
      eexists. exists l. constructor; cbn [k_shared k_owner k_threads k_hist k_next]; [exact I1|..]; cbn [shared owner hist next threads]; auto.
      + now rewrite Hi.
      + intros t'. thr t t'; [reflexivity|apply Th].
      + intros t' c' o' s. thr t t'; [discriminate|apply Ins].
      + intros c' t1 o1 d t2 o2 B. apply before_snoc_inv in B as [B|[B B']]; [eauto|discriminate].
      + intros t' c' d t2 w Lv Hin. apply in_app_or in Hin as [Hin|[Hin|[]]]; [|discriminate].
        thr t t'; [|eauto]. destruct Lv as [(? & E)|[(? & ? & E)|(? & E)]]; discriminate.
      + intros c' r' d t2 w R Hin L. apply in_app_or in Hin as [Hin|[Hin|[]]]; [|discriminate]. apply in_app_or in R as [R|[R|[]]].
        * apply before_app_l. eauto.
        * inversion R; subst. assert (d < c'); [|lia]. eapply Liv; [|exact Hin]. rewrite T. right; right. eauto.
    - (* kill *)
      pose proof (Th t) as Tt. rewrite T in Tt. cbn in Tt.
      pose proof (StInvoke (Env := Env) step j t (inr w) Tt) as S1.
      destruct (inv_step I S1) as (l1 & I1 & [-> |(t1 & c1 & o1 & e1 & r1 & X & Y & _)]).
      2:{ cbn [threads] in X. thr t t1; [discriminate|now elim (Y r1)]. }
      match type of I1 with inv _ _ ?jx _ => set (j1 := jx) in * end.
      assert (threads j1 t = Waiting (next j) (inr w)) as T1 by apply upd_eq.
      destruct (through t e I1 Ow T1) as (j2 & e' & I2 & E1 & E2 & E3 & E4 & E5 & E6).
      change (shared j1) with (shared j) in *. rewrite Sh in *.
      pose proof (StReturn (Env := Env) step j2 t E5) as S3.
      destruct (inv_step I2 S3) as (l3 & I3 & [-> |(t1 & c1 & o1 & e1 & r1 & X & Y & _)]).
      2:{ cbn [threads] in X. thr t t1; [discriminate|now elim (Y r1)]. }
      assert (forall c t' o, In (Inv c t' o) (k_hist k) -> c < k_next k) as Old by (intros c t' o; rewrite <- Hi, <- Ne; apply (i_inv I)).
      assert (forall x, In x l -> c_id x < k_next k) as Oldl.
      { intros x Hx. destruct (ex_sound (i_ex I) x Hx) as [(t2 & A) _]. rewrite Hi in A. eauto. }
      eexists. eexists. constructor; cbn [k_shared k_owner k_threads k_hist k_next]; [exact I3|..]; cbn [shared owner hist next threads]; auto.
      + rewrite E3. unfold j1. cbn [hist]. now rewrite Hi, Ne, <- app_assoc.
      + rewrite E4. unfold j1. cbn [next]. now rewrite Ne.
      + intros t'. thr t t'; [now rewrite T|]. rewrite E6 by assumption. unfold j1. cbn [threads]. rewrite upd_other by assumption.
        pose proof (Th t') as Tt'. destruct (k_threads k t'); cbn in *; auto.
      + intros t' c' o' s. destruct (k_threads k t'); discriminate.
      + intros c' t1 o1 d t2 o2 B. rewrite app_assoc in B. apply before_snoc_inv in B as [B|[B B']]; [|discriminate].
        apply before_snoc_inv in B as [B|[B B']]; [eauto|]. inversion B; subst. eauto.
      + intros t' c' d t2 w' Lv _. destruct Lv as [(? & E)|[(? & ? & E)|(? & E)]]; destruct (k_threads k t'); discriminate.
      + intros c' r' d t2 w' R Hin L.
        assert (forall l : list (gevent (Op + Kill) Res), before l (Ret c' r') (Inv d t2 (inr w')) -> forall m, before (l ++ m) (Ret c' r') (Inv d t2 (inr w'))) as G by (intros; now apply before_app_l).
        apply in_app_or in R as [R|[R|[R|[]]]]; [|discriminate|].
        * apply in_app_or in Hin as [Hin|[Hin|[Hin|[]]]]; [apply G; eauto| |discriminate]. inversion Hin; subst. rewrite app_assoc. apply G. now apply before_snoc.
        * inversion R; subst. apply in_app_or in Hin as [Hin|[Hin|[Hin|[]]]]; [|inversion Hin; subst; lia|discriminate]. apply Old in Hin. lia.
      + intros x y w' Hx Hy K Lt. apply in_app_or in Hx as [Hx|[<-|[]]].
        * apply in_app_or in Hy as [Hy|[<-|[]]]; [apply before_app_l; eauto|now apply before_snoc].
        * apply in_app_or in Hy as [Hy|[<-|[]]]; [|cbn in Lt; lia]. apply Oldl in Hy. cbn in Lt. rewrite Ne in Lt. lia.
  Qed.
  Lemma kreach_sim k : kreach k -> exists j l, sim k j l.
  Proof.
    induction 1 as [|k k' _ (j & l & IH) Hst]; [exists (config0 _ _ init), []; apply sim0|]. eapply sim_step; eauto.
  Qed.

  Theorem killable_linearizable k : kreach k -> exists l, explains_kills (k_hist k) (k_shared k) l.
  Proof.
    intros R. destruct (kreach_sim R) as (j & l & M). exists l. destruct M as [I Sh Ow Hi Ne Th Ins Ord Liv Rt Cut]. constructor.
    - rewrite <- Hi, <- Sh. apply I.
    - intros c t o d t' w r B Hr. apply Rt; auto; [|eauto]. now apply before_in in B.
    - intros x y t t' w Hx Hy K B. eauto.
  Qed.

  (** No deadlock, however often the process was killed. *)
  Theorem killable_progress (e0 : Env) k t : kreach k -> k_threads k t <> KIdle -> k_threads k t <> KDead ->
    exists t' k', k_threads k t' <> KIdle /\ k_threads k' t' <> k_threads k t' /\ kstep k k' /\ k_next k' = k_next k.
  Proof.
    intros R N1 N2.
    assert (forall t, k_owner k = Some t -> exists c o s, k_threads k t = KInside c o s) as Ow.
    { clear - R. induction R as [|k k' _ IH Hst]; [discriminate|]. intros t' E. destruct Hst as [k t o T|k t c o T O|k t c o s e T|k t c o e r T P|k t c r T|k t w e T W]; cbn [k_owner k_threads] in *; try discriminate.
      - destruct (IH _ E) as (c & o' & s & X). thr t t'; [congruence|eauto].
      - inversion E; subst. rewrite upd_eq. eauto.
      - destruct (IH _ E) as (c' & o' & s & X). thr t t'; [congruence|eauto].
      - destruct (IH _ E) as (c' & o' & s & X). thr t t'; [congruence|eauto]. }
    destruct (k_owner k) as [t'|] eqn:O.
    - destruct (Ow _ eq_refl) as (c & o & s & T). exists t'. eexists. conj; [congruence| |eapply KRelease with (e := e0); eauto|reflexivity].
      cbn. rewrite upd_eq, T. discriminate.
    - destruct (k_threads k t) as [|c o|c o s|c r|] eqn:T; try easy.
      + exists t. eexists. conj; [congruence| |eapply KAcquire; eauto|reflexivity]. cbn. rewrite upd_eq, T. discriminate.
      + exists t. eexists. conj; [congruence| |eapply KRelease with (e := e0); eauto|reflexivity]. cbn. rewrite upd_eq, T. discriminate.
      + exists t. eexists. conj; [congruence| |eapply KReturn; eauto|reflexivity]. cbn. rewrite upd_eq, T. discriminate.
  Qed.
End Killable.
