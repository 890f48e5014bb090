(** * Running a given schedule of concurrent RocksDB calls

    An executable version of [rstep], used to exhibit concrete interleavings. *)
From Verif Require Import Base OMap Json Types Util Db Rdb MemFacts Conc RdbProg RdbConc.

Set Implicit Arguments.

(** Thread [t] invokes [o] with environment [e]; thread [t] takes [n] steps. *)
Inductive act := Begin (t : nat) (e : renv) (o : op) | Go (t n : nat).

Definition has_guard (x : rthread) (g : guard) : bool :=
  match x with
  | Running _ _ g' _ => match g, g' with GNone, GNone | GShared, GShared | GExcl, GExcl => true | _, _ => false end
  | RIdle => false
  end.

Section Sched.
  Variable H : list byte -> N.
  Variable enc : json -> bytes.
  Variable dec : bytes -> option json.
  (** Threads [N] and above never run. *)
  Variable bound : nat.

  Definition nobody (k : rconfig) (g : guard) : bool :=
    forallb (fun t => negb (has_guard (rc_threads k t) g)) (seq 0 bound).

  Definition with_thread (k : rconfig) (t : nat) (x : rthread) : rconfig :=
    RConfig (rc_db k) (rc_ix k) (upd (rc_threads k) t x) (rc_hist k) (rc_next k).

  Definition go1 (k : rconfig) (t : nat) : option rconfig :=
    match rc_threads k t with
    | RIdle => None
    | Running c e g p =>
      match p with
      | PRet r => Some (RConfig (rc_db k) (rc_ix k) (upd (rc_threads k) t RIdle) (rc_hist k ++ [Ret c r]) (rc_next k))
      | PDb f => Some (with_thread k t (Running c e g (f (rc_db k))))
      | PIx f => if nobody k GExcl then Some (with_thread k t (Running c e g (f (rc_ix k)))) else None
      | PShared f => if nobody k GExcl then Some (with_thread k t (Running c e GShared (f (rc_ix k)))) else None
      | PExcl f => if nobody k GExcl && nobody k GShared then Some (with_thread k t (Running c e GExcl (f (rc_ix k)))) else None
      | PSetIx ix p => Some (RConfig (rc_db k) ix (upd (rc_threads k) t (Running c e g p)) (rc_hist k) (rc_next k))
      | PWrite b p => if wok e then Some (RConfig (apply_batch b (rc_db k)) (rc_ix k) (upd (rc_threads k) t (Running c e g p)) (rc_hist k) (rc_next k))
                      else Some (with_thread k t (Running c e g (PRet (Err EDatastore))))
      end
    end.

  Fixpoint go (n : nat) (k : rconfig) (t : nat) : option rconfig :=
    match n with O => Some k | S n => match go1 k t with Some k1 => go n k1 t | None => None end end.

  Definition perform (k : rconfig) (a : act) : option rconfig :=
    match a with
    | Begin t e o => match rc_threads k t with
                     | RIdle => if Nat.ltb t bound then
                         Some (RConfig (rc_db k) (rc_ix k) (upd (rc_threads k) t (Running (rc_next k) e GNone (prog_of H enc dec e o)))
                                 (rc_hist k ++ [Inv (rc_next k) t o]) (S (rc_next k))) else None
                     | _ => None end
    | Go t n => go n k t
    end.

  Fixpoint schedule (l : list act) (k : rconfig) : option rconfig :=
    match l with [] => Some k | a :: l => match perform k a with Some k1 => schedule l k1 | None => None end end.

  (** *** Soundness *)
  Definition beyond (k : rconfig) : Prop := forall t, bound <= t -> rc_threads k t = RIdle.
  (** Every environment in the schedule satisfies [E]. *)
  Definition acts_in (E : renv -> Prop) (l : list act) : Prop := forall t e o, In (Begin t e o) l -> E e.

  Lemma holds_guard x g : holds x g -> has_guard x g = true.
  Proof. intros (c & e & p & ->). now destruct g. Qed.
  Lemma nobody_sound k g : beyond k -> nobody k g = true -> forall t, ~ holds (rc_threads k t) g.
  Proof.
    intros B N t Ht. destruct (Nat.lt_ge_cases t bound) as [L|L].
    - unfold nobody in N. rewrite forallb_forall in N. specialize (N t). rewrite in_seq in N.
      rewrite (holds_guard Ht) in N. discriminate N. lia.
    - rewrite B in Ht by assumption. now apply holds_idle in Ht.
  Qed.

  Section Reach.
    Variable E : renv -> Prop.
    Variable s : rstate.

    Lemma beyond_upd k t x d ix h n : beyond k -> rc_threads k t <> RIdle -> beyond (RConfig d ix (upd (rc_threads k) t x) h n).
    Proof.
      intros B Ne t' L. cbn. destruct (upd_case (rc_threads k) t x t') as [[-> U]|[_ U]]; rewrite U; [|auto].
      now rewrite B in Ne by assumption.
    Qed.
    Lemma envs_upd k t c e g p g' p' d ix h n : envs E k -> rc_threads k t = Running c e g p ->
      envs E (RConfig d ix (upd (rc_threads k) t (Running c e g' p')) h n).
    Proof.
      intros En Th t' c' e' g'' p'' X. cbn in X. destruct (upd_case (rc_threads k) t (Running c e g' p') t') as [[-> U]|[_ U]]; rewrite U in X.
      - inversion X; subst. eauto.
      - eauto.
    Qed.

    Lemma go1_step k t k' : go1 k t = Some k' -> envs E k -> beyond k -> rstep H enc dec k k' /\ envs E k' /\ beyond k'.
    Proof.
      intros G En B. unfold go1 in G. destruct (rc_threads k t) as [|c e g p] eqn:Th; [discriminate|].
      assert (rc_threads k t <> RIdle) as Ne by congruence.
      destruct p as [r|f|f|f|f|ix f|b f].
      - inversion G; subst. conj; [eapply RReturn; eauto| |now apply beyond_upd].
        intros t' c' e' g' p' X. cbn in X. destruct (upd_case (rc_threads k) t RIdle t') as [[-> U]|[_ U]]; rewrite U in X; [discriminate|eauto].
      - inversion G; subst. conj; [eapply RRead; eauto|eapply envs_upd; eauto|now apply beyond_upd].
      - destruct (nobody k GExcl) eqn:N1; inversion G; subst.
        conj; [eapply RIndexed; eauto using nobody_sound|eapply envs_upd; eauto|now apply beyond_upd].
      - destruct (nobody k GExcl) eqn:N1; inversion G; subst.
        conj; [eapply RShared; eauto using nobody_sound|eapply envs_upd; eauto|now apply beyond_upd].
      - destruct (nobody k GExcl) eqn:N1; [|discriminate]. destruct (nobody k GShared) eqn:N2; inversion G; subst.
        conj; [eapply RExcl; eauto using nobody_sound|eapply envs_upd; eauto|now apply beyond_upd].
      - inversion G; subst. conj; [eapply RSetIx; eauto|eapply envs_upd; eauto|now apply beyond_upd].
      - destruct (wok e) eqn:W; inversion G; subst.
        + conj; [eapply RWrite; eauto|eapply envs_upd; eauto|now apply beyond_upd].
        + conj; [eapply RFail; eauto|eapply envs_upd; eauto|now apply beyond_upd].
    Qed.
    Lemma go1_sound k t k' : go1 k t = Some k' -> rreach H enc dec E s k -> envs E k -> beyond k ->
      rreach H enc dec E s k' /\ envs E k' /\ beyond k'.
    Proof. intros G R En B. destruct (go1_step t G En B) as (A & A1 & A2). conj; auto. eapply RReachS; eauto. Qed.

    Lemma go_sound n : forall k t k', go n k t = Some k' -> rreach H enc dec E s k -> envs E k -> beyond k ->
      rreach H enc dec E s k' /\ envs E k' /\ beyond k'.
    Proof.
      induction n as [|n IH]; intros k t k' G R En B; cbn in G; [inversion G; subst; auto|].
      destruct (go1 k t) as [k1|] eqn:G1; [|discriminate]. destruct (go1_sound t G1 R En B) as (R1 & E1 & B1). eauto.
    Qed.

    Lemma schedule_sound' l : forall k k', schedule l k = Some k' -> acts_in E l -> rreach H enc dec E s k -> envs E k -> beyond k ->
      rreach H enc dec E s k' /\ envs E k' /\ beyond k'.
    Proof.
      induction l as [|a l IH]; intros k k' G A R En B; cbn in G; [inversion G; subst; auto|].
      destruct (perform k a) as [k1|] eqn:P; [|discriminate].
      assert (acts_in E l) as A' by (intros t e o X; apply (A t e o); now right).
      assert (rreach H enc dec E s k1 /\ envs E k1 /\ beyond k1) as (R1 & E1 & B1); [|eauto].
      destruct a as [t e o|t n]; cbn [perform] in P; [|eapply go_sound; eauto].
      destruct (rc_threads k t) eqn:Th; [|discriminate]. destruct (Nat.ltb t bound) eqn:Lb; inversion P; subst. apply Nat.ltb_lt in Lb.
      assert (envs E (RConfig (rc_db k) (rc_ix k) (upd (rc_threads k) t (Running (rc_next k) e GNone (prog_of H enc dec e o)))
                (rc_hist k ++ [Inv (rc_next k) t o]) (S (rc_next k)))) as E2.
      { intros t' c' e' g' p' X. cbn in X.
        destruct (upd_case (rc_threads k) t (Running (rc_next k) e GNone (prog_of H enc dec e o)) t') as [[-> U]|[_ U]]; rewrite U in X; [|eauto].
        inversion X; subst. apply (A t e' o). now left. }
      conj; [eapply RReachS; [exact R|now apply RInvoke|exact E2]|exact E2|].
      intros t' L. cbn. destruct (upd_case (rc_threads k) t (Running (rc_next k) e GNone (prog_of H enc dec e o)) t') as [[-> U]|[_ U]]; rewrite U; [lia|auto].
    Qed.

    Theorem schedule_sound l k : schedule l (rconfig0 s) = Some k -> acts_in E l -> rreach H enc dec E s k /\ beyond k.
    Proof.
      intros G A. destruct (@schedule_sound' l (rconfig0 s) k G A) as (R & _ & B); auto.
      - constructor.
      - intros t c e g p X. discriminate X.
      - intros t _. reflexivity.
    Qed.
  End Reach.

  (** Everybody has returned. *)
  Definition quiet (k : rconfig) : bool :=
    forallb (fun t => match rc_threads k t with RIdle => true | _ => false end) (seq 0 bound).
  Lemma quiet_sound k : beyond k -> quiet k = true -> forall t, rc_threads k t = RIdle.
  Proof.
    intros B Q t. destruct (Nat.lt_ge_cases t bound) as [L|L]; [|auto].
    unfold quiet in Q. rewrite forallb_forall in Q. specialize (Q t). rewrite in_seq in Q.
    destruct (rc_threads k t); [reflexivity|]. discriminate Q. lia.
  Qed.
End Sched.
