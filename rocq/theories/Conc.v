(** * Concurrent calls

    Histories of concurrent calls, what it means for one to be linearizable, and
    the in-memory datastore behind its mutex.  Generic in the calls [Op] and
    their results [Res]; for the library these are [op] and [outcome res], for a
    server the requests and responses (PropsServer.v). *)
From Verif Require Import Base OMap Json Types Util Db Mem Spec MemFacts.

Set Implicit Arguments.

(** ** Histories *)

(** What an outside observer sees: thread [t] invokes operation [o] (call
    number [c]); later call [c] returns [r].  Call numbers are unique. *)
Inductive gevent (Op Res : Type) := Inv (c t : nat) (o : Op) | Ret (c : nat) (r : Res).
Arguments Inv {Op Res}. Arguments Ret {Op Res}.
Notation event := (gevent op (outcome res)).

(** [x] occurs before [y] in the list. *)
Definition before {A} (l : list A) (x y : A) : Prop :=
  exists l1 l2 l3, l = l1 ++ x :: l2 ++ y :: l3.

(** One call of a sequential explanation: its number, its environment (the
    nondeterministic choices of that call), the operation and its result. *)
Record gcall (Op Res Env : Type) := Call { c_id : nat; c_env : Env; c_op : Op; c_res : Res }.
Arguments Call {Op Res Env}. Arguments c_id {Op Res Env}. Arguments c_env {Op Res Env}. Arguments c_op {Op Res Env}. Arguments c_res {Op Res Env}.
Notation call := (gcall op (outcome res)).

(** ** The specification

    [step s (e, o)] is the sequential behaviour of the object. *)
Section Lin.
  Variables (Op Res St Env : Type).
  Variable step : St -> Env * Op -> Res * St.

  (** Executing the calls one after the other from [s] gives exactly the
      recorded results and ends in [s']. *)
  Fixpoint sequential (s : St) (l : list (gcall Op Res Env)) (s' : St) : Prop :=
    match l with
    | [] => s = s'
    | k :: r => exists s1, step s (c_env k, c_op k) = (c_res k, s1) /\ sequential s1 r s'
    end.

  (** The history [h], which started in state [s] and has led to state [s'], is
      explained by executing the calls [l] one after the other. *)
  Record explains (s : St) (h : list (gevent Op Res)) (s' : St) (l : list (gcall Op Res Env)) : Prop := {
    ex_once : NoDup (map (@c_id Op Res Env) l);
    (** every call that has returned is there, with its operation and its result *)
    ex_complete : forall c t o r, In (Inv c t o) h -> In (Ret c r) h ->
      exists e, In (Call c e o r) l;
    (** every call that is there was invoked, and returns what it returns there *)
    ex_sound : forall k, In k l -> (exists t, In (Inv (c_id k) t (c_op k)) h) /\
      (forall r, In (Ret (c_id k) r) h -> r = c_res k);
    ex_legal : sequential s l s';
    (** a call that returned before another one was invoked comes first *)
    ex_order : forall k k' r t, before h (Ret (c_id k) r) (Inv (c_id k') t (c_op k')) ->
      In k l -> In k' l -> before l k k' }.

  Definition linearizable (s : St) (h : list (gevent Op Res)) (s' : St) : Prop :=
    exists l, explains s h s' l.

  Lemma sequential_snoc l : forall s s1 s2 k, sequential s l s1 ->
    step s1 (c_env k, c_op k) = (c_res k, s2) -> sequential s (l ++ [k]) s2.
  Proof.
    induction l as [|x l IH]; intros s s1 s2 k H E; cbn in *.
    - subst. now exists s2.
    - destruct H as (s' & E1 & H). exists s'. split; auto. eapply IH; eauto.
  Qed.

  (** The sequential run reaches [s'] from [s]. *)
  Lemma sequential_run l : forall s s', sequential s l s' ->
    fold_left (fun s x => snd (step s x)) (map (fun k => (c_env k, c_op k)) l) s = s'.
  Proof.
    induction l as [|x l IH]; intros s s' H; cbn in *; [auto|].
    destruct H as (s1 & E & H). rewrite E. cbn. auto.
  Qed.
End Lin.

Lemma before_app_l {A} (l m : list A) x y : before l x y -> before (l ++ m) x y.
Proof. intros (a & b & c & ->). exists a, b, (c ++ m). now rewrite <- !app_assoc, <- app_comm_cons, <- app_assoc. Qed.

Lemma before_snoc {A} (l : list A) x y : In x l -> before (l ++ [y]) x y.
Proof.
  intros H. apply in_split in H as (a & b & ->). exists a, b, []. now rewrite <- app_assoc.
Qed.

Lemma before_snoc_inv {A} (l : list A) x y z : before (l ++ [z]) x y ->
  before l x y \/ (y = z /\ In x l).
Proof.
  intros (a & b & c & E). destruct c as [|w c] using rev_ind.
  - assert (l ++ [z] = (a ++ x :: b) ++ [y]) as E1 by (rewrite E; now rewrite <- app_assoc).
    apply app_inj_tail in E1 as [-> ->]. right. split; auto. apply in_or_app. right. now left.
  - clear IHc. assert (l ++ [z] = (a ++ x :: b ++ y :: c) ++ [w]) as E1.
    { rewrite E. rewrite <- !app_assoc. cbn. now rewrite <- app_assoc. }
    apply app_inj_tail in E1 as [-> ->]. left. now exists a, b, c.
Qed.

Lemma before_in {A} (l : list A) x y : before l x y -> In x l /\ In y l.
Proof. intros (a & b & c & ->). split; apply in_or_app; right; [now left|right; apply in_or_app; right; now left]. Qed.

(** ** An object protected by one lock

    [memory/datastore.rs] 403-458: [MemoryDatastore] holds an
    [Arc<Mutex<InternalMemory>>]; [transaction()] locks it and the guard lives in
    the [MemoryTransaction].  Every method of [Database] (database.rs 221-378)
    opens one transaction, works on it, and drops it when it returns. *)
Section Locked.
  Variables (Op Res St Env : Type).
  Variable step : St -> Env * Op -> Res * St.
  Variable init : St.

  (** What a thread is doing: nothing; waiting for the lock; inside, having seen
      the shared state [s]; done with the lock and about to return. *)
  Inductive tstate :=
  | Idle
  | Waiting (c : nat) (o : Op)
  | Inside (c : nat) (o : Op) (s : St)
  | Leaving (c : nat) (r : Res).

  Record config := Config {
    shared : St;
    owner : option nat;
    threads : nat -> tstate;
    hist : list (gevent Op Res);
    next : nat }.

  Definition config0 : config := Config init None (fun _ => Idle) [] 0.

  Definition upd {A} (f : nat -> A) (t : nat) (x : A) : nat -> A :=
    fun t' => if Nat.eqb t' t then x else f t'.

  (** Any thread may take the next step. *)
  Inductive cstep : config -> config -> Prop :=
  (** a thread that is idle calls the database *)
  | StInvoke : forall k t o, threads k t = Idle ->
      cstep k (Config (shared k) (owner k) (upd (threads k) t (Waiting (next k) o))
                      (hist k ++ [Inv (next k) t o]) (S (next k)))
  (** [lock()] succeeds when nobody holds the lock *)
  | StAcquire : forall k t c o, threads k t = Waiting c o -> owner k = None ->
      cstep k (Config (shared k) (Some t) (upd (threads k) t (Inside c o (shared k)))
                      (hist k) (next k))
  (** the call has worked on what it saw; the guard is dropped *)
  | StRelease : forall k t c o s e, threads k t = Inside c o s ->
      cstep k (Config (snd (step s (e, o))) None (upd (threads k) t (Leaving c (fst (step s (e, o)))))
                      (hist k) (next k))
  (** a call that neither looks at the shared state nor changes it does without
      the lock (a malformed request to a server, for example; the calls of the
      library always lock) *)
  | StPass : forall k t c o (e : Env) r, threads k t = Waiting c o -> (forall s e', step s (e', o) = (r, s)) ->
      cstep k (Config (shared k) (owner k) (upd (threads k) t (Leaving c r)) (hist k) (next k))
  | StReturn : forall k t c r, threads k t = Leaving c r ->
      cstep k (Config (shared k) (owner k) (upd (threads k) t Idle)
                      (hist k ++ [Ret c r]) (next k)).

  Inductive reach : config -> Prop :=
  | Reach0 : reach config0
  | ReachS : forall k k', reach k -> cstep k k' -> reach k'.

  (** *** Proof *)

  Definition busy (k : config) (t c : nat) : Prop :=
    (exists o, threads k t = Waiting c o) \/ (exists o s, threads k t = Inside c o s) \/
    (exists r, threads k t = Leaving c r).

  Record inv (k : config) (l : list (gcall Op Res Env)) : Prop := {
    i_ex : explains step init (hist k) (shared k) l;
    i_wait : forall t c o, threads k t = Waiting c o ->
      In (Inv c t o) (hist k) /\ (forall r, ~ In (Ret c r) (hist k)) /\ ~ In c (map (@c_id Op Res Env) l);
    i_in : forall t c o s, threads k t = Inside c o s -> owner k = Some t /\ s = shared k /\
      In (Inv c t o) (hist k) /\ (forall r, ~ In (Ret c r) (hist k)) /\ ~ In c (map (@c_id Op Res Env) l);
    i_out : forall t c r, threads k t = Leaving c r ->
      (forall r, ~ In (Ret c r) (hist k)) /\
      exists e o, In (Call c e o r) l /\ In (Inv c t o) (hist k);
    i_inv : forall c t o, In (Inv c t o) (hist k) -> c < next k;
    i_inv1 : forall c t o t' o', In (Inv c t o) (hist k) -> In (Inv c t' o') (hist k) -> t = t' /\ o = o';
    i_ret : forall c r, In (Ret c r) (hist k) -> exists t o, In (Inv c t o) (hist k);
    i_busy : forall t t' c, busy k t c -> busy k t' c -> t = t';
    i_owner : forall t, owner k = Some t -> exists c o s, threads k t = Inside c o s }.

  Lemma upd_eq {A} (f : nat -> A) t x : upd f t x t = x.
  Proof. unfold upd. now rewrite Nat.eqb_refl. Qed.
  Lemma upd_case {A} (f : nat -> A) t x t' : (t' = t /\ upd f t x t' = x) \/ (t' <> t /\ upd f t x t' = f t').
  Proof. unfold upd. destruct (Nat.eqb_spec t' t); auto. Qed.

  Lemma busy_inv k l t c : inv k l -> busy k t c -> exists o, In (Inv c t o) (hist k).
  Proof.
    intros I [(o & E) | [(o & s & E) | (r & E)]].
    - exists o. now apply (i_wait I) in E.
    - exists o. now apply (i_in I) in E.
    - apply (i_out I) in E as (_ & e & o & _ & E). now exists o.
  Qed.

  Lemma ex_id l : NoDup (map (@c_id Op Res Env) l) -> forall k k', In k l -> In k' l -> c_id k = c_id k' -> k = k'.
  Proof.
    induction l as [|x l IH]; cbn; intros N k k' H H' E; [easy|]. inversion N; subst.
    destruct H as [->|H]; destruct H' as [->|H']; auto.
    - exfalso. apply H2. rewrite E. now apply in_map.
    - exfalso. apply H2. rewrite <- E. now apply in_map.
  Qed.

  Lemma NoDup_snoc {A} (l : list A) x : NoDup l -> ~ In x l -> NoDup (l ++ [x]).
  Proof.
    intros N H. apply NoDup_Add with (a := x) (l := l); [|now split].
    replace l with (l ++ []) at 1 by apply app_nil_r. apply Add_app.
  Qed.

  Ltac in_snoc H := apply in_app_or in H as [H | [H | []]].

  Lemma inv_step k l k' : inv k l -> cstep k k' -> exists l', inv k' l' /\
    (l' = l \/ exists t c o e r, threads k' t = Leaving c r /\ (forall r', threads k t <> Leaving c r') /\ l' = l ++ [Call c e o r]).
  Proof.
    intros I Hst. inversion Hst as [k0 t o Th E1 E2 | k0 t c o Th Ow E1 E2 | k0 t c o s e Th E1 E2 | k0 t c o e r Th Pu E1 E2 | k0 t c r Th E1 E2];
      subst; clear Hst.
    - (* invoke *)
      assert (forall c, ~ (c < next k) -> (forall t o, ~ In (Inv c t o) (hist k)) /\ (forall r, ~ In (Ret c r) (hist k))
                        /\ ~ In c (map (@c_id Op Res Env) l)) as Fresh.
      { intros c Hc. conj; intros; intro A.
        - apply (i_inv I) in A. auto.
        - apply (i_ret I) in A as (? & ? & A). apply (i_inv I) in A. auto.
        - apply in_map_iff in A as (x & <- & A). apply (ex_sound (i_ex I)) in A as [(? & A) _].
          apply (i_inv I) in A. auto. }
      destruct (Fresh (next k) (Nat.lt_irrefl _)) as (F1 & F2 & F3).
      exists l. split; [|now left]. constructor; cbn [hist shared threads owner next].
      + destruct (i_ex I) as [X1 X2 X3 X4 X5]. constructor; auto.
        * intros c t' o' r A B. in_snoc B; [|discriminate]. in_snoc A; [eauto|].
          inversion A; subst. now destruct (F2 r).
        * intros x A. destruct (X3 x A) as [(t' & B) C]. split.
          -- exists t'. apply in_or_app. now left.
          -- intros r B'. in_snoc B'; [auto|discriminate].
        * intros x x' r t' B A A'. apply before_snoc_inv in B as [B | [B B']]; [eauto|].
          inversion B as [[Hn Ht Ho]]. exfalso. apply F3. rewrite <- Hn. now apply in_map.
      + intros t' c o' E. destruct (upd_case (threads k) t (Waiting (next k) o) t') as [[-> U] | [Ne U]]; rewrite U in E.
        * inversion E; subst. conj; auto; [apply in_or_app; right; now left|].
          intros r A. in_snoc A; [|discriminate]. exact (F2 r A).
        * apply (i_wait I) in E as (A & B & C). conj; auto; [apply in_or_app; now left|].
          intros r D. in_snoc D; [|discriminate]. exact (B r D).
      + intros t' c o' s E. destruct (upd_case (threads k) t (Waiting (next k) o) t') as [[-> U] | [Ne U]]; rewrite U in E.
        * discriminate.
        * apply (i_in I) in E as (A0 & A1 & A & B & C). conj; auto; [apply in_or_app; now left|].
          intros r D. in_snoc D; [|discriminate]. exact (B r D).
      + intros t' c r E. destruct (upd_case (threads k) t (Waiting (next k) o) t') as [[-> U] | [Ne U]]; rewrite U in E.
        * discriminate.
        * apply (i_out I) in E as (A & e & o' & B & C). split.
          -- intros r' D. in_snoc D; [|discriminate]. exact (A r' D).
          -- exists e, o'. split; auto. apply in_or_app; now left.
      + intros c t' o' A. in_snoc A.
        * apply (i_inv I) in A. auto.
        * inversion A; subst. auto.
      + intros c t1 o1 t2 o2 A B. in_snoc A; in_snoc B.
        * eapply (i_inv1 I); eauto.
        * inversion B; subst. now destruct (F1 t1 o1).
        * inversion A; subst. now destruct (F1 t2 o2).
        * inversion A; inversion B; subst. auto.
      + intros c r A. in_snoc A; [|discriminate]. apply (i_ret I) in A as (t' & o' & A).
        exists t', o'. apply in_or_app; now left.
      + assert (forall t' c, t' <> t -> busy (Config (shared k) (owner k) (upd (threads k) t (Waiting (next k) o))
                      (hist k ++ [Inv (next k) t o]) (S (next k))) t' c -> busy k t' c) as Old.
        { intros t' c Ne B. unfold busy in B. cbn [threads] in B.
          destruct (upd_case (threads k) t (Waiting (next k) o) t') as [[-> U] | [_ U]]; [easy|]. now rewrite U in B. }
        assert (forall c, busy (Config (shared k) (owner k) (upd (threads k) t (Waiting (next k) o))
                      (hist k ++ [Inv (next k) t o]) (S (next k))) t c -> c = next k) as New.
        { intros c B. unfold busy in B. cbn [threads] in B. rewrite upd_eq in B.
          destruct B as [(? & B) | [(? & ? & B) | (? & B)]]; inversion B; auto. }
        assert (forall t' c, busy k t' c -> c <> next k) as Nn.
        { intros t' c B. apply (busy_inv I) in B as (o' & B). intros ->. exact (F1 _ _ B). }
        intros t1 t2 c A B. destruct (Nat.eq_dec t1 t) as [->|N1]; destruct (Nat.eq_dec t2 t) as [->|N2]; auto.
        * apply New in A. apply Old in B; auto. subst. now destruct (Nn t2 (next k)).
        * apply New in B. apply Old in A; auto. subst. now destruct (Nn t1 (next k)).
        * apply Old in A; auto. apply Old in B; auto. eapply (i_busy I); eauto.
      + intros t' Ow. apply (i_owner I) in Ow as (c & o' & s & Ow).
        destruct (upd_case (threads k) t (Waiting (next k) o) t') as [[-> U] | [Ne U]]; rewrite U; [congruence|eauto].
    - (* acquire *)
      destruct (i_wait I _ Th) as (W1 & W2 & W3).
      assert (forall t' c', busy (Config (shared k) (Some t) (upd (threads k) t (Inside c o (shared k))) (hist k) (next k)) t' c'
                            -> busy k t' c') as Old.
      { intros t' c' B. unfold busy in *. cbn [threads] in B.
        destruct (upd_case (threads k) t (Inside c o (shared k)) t') as [[-> U] | [_ U]]; rewrite U in B; auto.
        left. exists o. destruct B as [(? & B) | [(? & ? & B) | (? & B)]]; inversion B; subst; auto. }
      exists l. split; [|now left]. constructor; cbn [hist shared threads owner next]; try (now apply I).
      + intros t' c' o' E. destruct (upd_case (threads k) t (Inside c o (shared k)) t') as [[-> U] | [Ne U]]; rewrite U in E.
        * discriminate.
        * eapply (i_wait I); eauto.
      + intros t' c' o' s' E. destruct (upd_case (threads k) t (Inside c o (shared k)) t') as [[-> U] | [Ne U]]; rewrite U in E.
        * inversion E; subst. conj; auto.
        * apply (i_in I) in E as (A & _). rewrite Ow in A. discriminate.
      + intros t' c' r E. destruct (upd_case (threads k) t (Inside c o (shared k)) t') as [[-> U] | [Ne U]]; rewrite U in E.
        * discriminate.
        * eapply (i_out I); eauto.
      + intros t1 t2 c' A B. eapply (i_busy I); eauto.
      + intros t' Ow'. inversion Ow'; subst. rewrite upd_eq. eauto.
    - (* release *)
      destruct (i_in I _ Th) as (W0 & -> & W1 & W2 & W3).
      remember (step (shared k) (e, o)) as rs eqn:Er. destruct rs as [r s']. cbn [fst snd].
      set (x := Call c e o r).
      assert (forall t' c', busy (Config s' None (upd (threads k) t (Leaving c r)) (hist k) (next k)) t' c'
                            -> busy k t' c') as Old.
      { intros t' c' B. unfold busy in *. cbn [threads] in B.
        destruct (upd_case (threads k) t (Leaving c r) t') as [[-> U] | [_ U]]; rewrite U in B; auto.
        right; left. exists o, (shared k). destruct B as [(? & B) | [(? & ? & B) | (? & B)]]; inversion B; subst; auto. }
      exists (l ++ [x]). split; [|right; exists t, c, o, e, r; cbn [threads]; rewrite upd_eq; conj; [reflexivity|congruence|reflexivity]]. constructor; cbn [hist shared threads owner next]; try (now apply I).
      + destruct (i_ex I) as [X1 X2 X3 X4 X5]. constructor.
        * rewrite map_app. cbn. apply NoDup_snoc; auto.
        * intros c' t' o' r' A B. destruct (X2 _ _ _ _ A B) as (e' & C). exists e'. apply in_or_app. now left.
        * intros y A. in_snoc A; [auto|]. subst y. cbn. split; [eauto|].
          intros r' B. now destruct (W2 r').
        * eapply sequential_snoc; eauto.
        * intros y y' r' t' B A A'. in_snoc A'; in_snoc A.
          -- apply before_app_l. eauto.
          -- subst y. cbn in B. apply before_in in B as [B _]. now destruct (W2 r').
          -- subst y'. now apply before_snoc.
          -- subst y. cbn in B. apply before_in in B as [B _]. now destruct (W2 r').
      + intros t' c' o' E. destruct (upd_case (threads k) t (Leaving c r) t') as [[-> U] | [Ne U]]; rewrite U in E.
        * discriminate.
        * destruct (i_wait I _ E) as (A & B & C). conj; auto. rewrite map_app. intro D. in_snoc D; auto.
          cbn in D. subst c'. apply Ne. eapply (i_busy I). { left. eauto. } right; left. eauto.
      + intros t' c' o' s E. destruct (upd_case (threads k) t (Leaving c r) t') as [[-> U] | [Ne U]]; rewrite U in E.
        * discriminate.
        * apply (i_in I) in E as (A & _). rewrite W0 in A. inversion A. congruence.
      + intros t' c' r' E. destruct (upd_case (threads k) t (Leaving c r) t') as [[-> U] | [Ne U]]; rewrite U in E.
        * inversion E; subst. split; auto. exists e, o. split; auto. apply in_or_app. right. now left.
        * destruct (i_out I _ E) as (A & e' & o' & B & C). split; auto. exists e', o'. split; auto. apply in_or_app. now left.
      + intros t1 t2 c' A B. eapply (i_busy I); eauto.
      + discriminate.
    - (* pass *)
      destruct (i_wait I _ Th) as (W1 & W2 & W3).
      assert (step (shared k) (e, o) = (r, shared k)) as Er by apply Pu.
      set (x := Call c e o r).
      assert (forall t' c', busy (Config (shared k) (owner k) (upd (threads k) t (Leaving c r)) (hist k) (next k)) t' c'
                            -> busy k t' c') as Old.
      { intros t' c' B. unfold busy in *. cbn [threads] in B.
        destruct (upd_case (threads k) t (Leaving c r) t') as [[-> U] | [_ U]]; rewrite U in B; auto.
        left. exists o. destruct B as [(? & B) | [(? & ? & B) | (? & B)]]; inversion B; subst; auto. }
      exists (l ++ [x]). split; [|right; exists t, c, o, e, r; cbn [threads]; rewrite upd_eq; conj; [reflexivity|congruence|reflexivity]]. constructor; cbn [hist shared threads owner next]; try (now apply I).
      + destruct (i_ex I) as [X1 X2 X3 X4 X5]. constructor.
        * rewrite map_app. cbn. apply NoDup_snoc; auto.
        * intros c' t' o' r' A B. destruct (X2 _ _ _ _ A B) as (e' & C). exists e'. apply in_or_app. now left.
        * intros y A. in_snoc A; [auto|]. subst y. cbn. split; [eauto|].
          intros r' B. now destruct (W2 r').
        * eapply sequential_snoc; eauto.
        * intros y y' r' t' B A A'. in_snoc A'; in_snoc A.
          -- apply before_app_l. eauto.
          -- subst y. cbn in B. apply before_in in B as [B _]. now destruct (W2 r').
          -- subst y'. now apply before_snoc.
          -- subst y. cbn in B. apply before_in in B as [B _]. now destruct (W2 r').
      + intros t' c' o' E. destruct (upd_case (threads k) t (Leaving c r) t') as [[-> U] | [Ne U]]; rewrite U in E.
        * discriminate.
        * destruct (i_wait I _ E) as (A & B & C). conj; auto. rewrite map_app. intro D. in_snoc D; auto.
          cbn in D. subst c'. apply Ne. eapply (i_busy I); left; eauto.
      + intros t' c' o' s E. destruct (upd_case (threads k) t (Leaving c r) t') as [[-> U] | [Ne U]]; rewrite U in E.
        * discriminate.
        * destruct (i_in I _ E) as (A0 & A1 & A & B & C). conj; auto. rewrite map_app. intro D. in_snoc D; auto.
          cbn in D. subst c'. apply Ne. eapply (i_busy I); [right; left; eauto|left; eauto].
      + intros t' c' r' E. destruct (upd_case (threads k) t (Leaving c r) t') as [[-> U] | [Ne U]]; rewrite U in E.
        * inversion E; subst. split; auto. exists e, o. split; auto. apply in_or_app. right. now left.
        * destruct (i_out I _ E) as (A & e' & o' & B & C). split; auto. exists e', o'. split; auto. apply in_or_app. now left.
      + intros t1 t2 c' A B. eapply (i_busy I); eauto.
      + intros t' Ow. apply (i_owner I) in Ow as (c' & o' & s & Ow).
        destruct (upd_case (threads k) t (Leaving c r) t') as [[-> U] | [Ne U]]; rewrite U; [congruence|eauto].
    - (* return *)
      destruct (i_out I _ Th) as (W0 & e & o & W1 & W2).
      assert (forall t' c', busy (Config (shared k) (owner k) (upd (threads k) t Idle) (hist k ++ [Ret c r]) (next k)) t' c'
                            -> busy k t' c' /\ t' <> t) as Old.
      { intros t' c' B. unfold busy in *. cbn [threads] in B.
        destruct (upd_case (threads k) t Idle t') as [[-> U] | [Ne U]]; rewrite U in B; auto.
        destruct B as [(? & B) | [(? & ? & B) | (? & B)]]; inversion B. }
      assert (forall t' c', t' <> t -> busy k t' c' -> c' <> c) as Other.
      { intros t' c' Ne B ->. apply Ne. eapply (i_busy I); eauto. right; right. eauto. }
      exists l. split; [|now left]. constructor; cbn [hist shared threads owner next]; try (now apply I).
      + destruct (i_ex I) as [X1 X2 X3 X4 X5]. constructor; auto.
        * intros c' t' o' r' A B. in_snoc A; [|discriminate]. in_snoc B; [eauto|].
          inversion B; subst. exists e. destruct (i_inv1 I _ _ _ _ _ A W2) as [-> ->]. auto.
        * intros y A. destruct (X3 y A) as [(t' & B) C]. split.
          -- exists t'. apply in_or_app. now left.
          -- intros r' D. in_snoc D; auto. inversion D; subst.
             assert (y = Call (c_id y) e o r') as -> by (eapply ex_id; eauto). auto.
        * intros y y' r' t' B A A'. apply before_snoc_inv in B as [B | [B _]]; [eauto|discriminate].
      + intros t' c' o' E. destruct (upd_case (threads k) t Idle t') as [[-> U] | [Ne U]]; rewrite U in E.
        * discriminate.
        * destruct (i_wait I _ E) as (A & B & C). conj; auto; [apply in_or_app; now left|].
          intros r' D. in_snoc D; [exact (B r' D)|]. inversion D; subst.
          apply (Other t' c' Ne); auto. left. eauto.
      + intros t' c' o' s E. destruct (upd_case (threads k) t Idle t') as [[-> U] | [Ne U]]; rewrite U in E.
        * discriminate.
        * destruct (i_in I _ E) as (A0 & A1 & A & B & C). conj; auto; [apply in_or_app; now left|].
          intros r' D. in_snoc D; [exact (B r' D)|]. inversion D; subst.
          apply (Other t' c' Ne); auto. right; left. eauto.
      + intros t' c' r' E. destruct (upd_case (threads k) t Idle t') as [[-> U] | [Ne U]]; rewrite U in E.
        * discriminate.
        * destruct (i_out I _ E) as (A & e' & o' & B & C). split.
          -- intros r1 D. in_snoc D; [exact (A r1 D)|]. inversion D; subst.
             apply (Other t' c' Ne); auto. right; right. eauto.
          -- exists e', o'. split; auto. apply in_or_app. now left.
      + intros c' t' o' A. in_snoc A; [|discriminate]. eapply (i_inv I); eauto.
      + intros c' t1 o1 t2 o2 A B. in_snoc A; [|discriminate]. in_snoc B; [|discriminate]. eapply (i_inv1 I); eauto.
      + intros c' r' A. in_snoc A.
        * apply (i_ret I) in A as (t' & o' & A). exists t', o'. apply in_or_app. now left.
        * inversion A; subst. exists t, o. apply in_or_app. now left.
      + intros t1 t2 c' A B. apply Old in A as [A _]. apply Old in B as [B _]. eapply (i_busy I); eauto.
      + intros t' Ow. apply (i_owner I) in Ow as (c' & o' & s & Ow).
        destruct (upd_case (threads k) t Idle t') as [[-> U] | [Ne U]]; rewrite U; [congruence|eauto].
  Qed.

  Lemma inv0 : inv config0 [].
  Proof.
    constructor; cbn; try easy.
    - constructor; cbn; auto; try easy. constructor.
    - intros t t' c [(? & B) | [(? & ? & B) | (? & B)]]; inversion B.
  Qed.

  Lemma reach_inv k : reach k -> exists l, inv k l.
  Proof.
    induction 1 as [|k k' _ [l IH] Hst]; [exists []; exact inv0|]. destruct (inv_step IH Hst) as (l' & I & _). eauto.
  Qed.

  Theorem locked_linearizable k : reach k -> linearizable step init (hist k) (shared k).
  Proof. intros R. apply reach_inv in R as [l I]. exists l. apply I. Qed.

  (** No deadlock: while some thread is in a call, some thread in a call can take
      a step. *)
  Theorem locked_progress (e0 : Env) k t : reach k -> threads k t <> Idle ->
    exists t' k', threads k t' <> Idle /\ threads k' t' <> threads k t' /\ cstep k k' /\ next k' = next k.
  Proof.
    intros R Ne. apply reach_inv in R as [l I].
    destruct (owner k) as [t'|] eqn:Ow.
    - destruct (i_owner I Ow) as (c & o & s & Th). exists t'. eexists. conj; [congruence| |eapply StRelease with (e := e0); eauto|reflexivity].
      cbn. rewrite upd_eq, Th. discriminate.
    - destruct (threads k t) as [|c o|c o s|c r] eqn:Th; [easy| | |].
      + exists t. eexists. conj; [congruence| |eapply StAcquire; eauto|reflexivity]. cbn. rewrite upd_eq, Th. discriminate.
      + apply (i_in I) in Th as (Th & _). congruence.
      + exists t. eexists. conj; [congruence| |eapply StReturn; eauto|reflexivity]. cbn. rewrite upd_eq, Th. discriminate.
  Qed.
End Locked.
Arguments Idle {Op Res St}. Arguments Waiting {Op Res St}. Arguments Inside {Op Res St}. Arguments Leaving {Op Res St}.
