(** * C61, continued: concurrent calls of a RocksDB database that crashes and is
    opened again. *)
From Verif Require Import Base OMap Json Types Util Db Mem Rdb Spec QueryFacts MemFacts MemHist KeyFacts RdbSpec RdbRep RdbWrite RdbPut RdbRefine RdbGraph RdbHist RdbCrash
  Claims PropsMem Examples PropsMemIndex PropsRdb PropsRdbIndex Conc RdbProg RdbAlone RdbConc RdbLive RdbConcInv RdbCalm RdbSched RdbSerial
  Foot RdbFoot RdbApart PropsConc RdbDoom.

Set Implicit Arguments.
Local Open Scope list_scope.

Section Rocks.
  Variable H : list byte -> N.
  Variable enc : json -> bytes.
  Variable dec : bytes -> option json.
  Variable E : renv -> Prop.
  Notation step := (rdb_step H enc dec).
  Notation rreach := (rreach H enc dec E).
  Notation run_from := (run_from H enc dec).
  Notation events := (events H enc dec).
  Notation history := (list (gevent op (outcome res))).
  Notation call := (gcall op (outcome res) renv).

  (** ** At every moment *)

  Lemma explains_prefix s h h' s' l : explains step s (h ++ h') s' l -> Forall is_ret h' -> explains step s h s' l.
  Proof.
    intros [O Co So Le Or] F. split; auto.
    - intros c t o r I1 I2. apply (Co c t o r); apply in_or_app; auto.
    - intros k Hk. destruct (So k Hk) as [(t & It) Rt]. split.
      + exists t. apply in_app_or in It as [It|It]; [exact It|]. rewrite Forall_forall in F. destruct (F _ It) as (? & ? & X). discriminate.
      + intros r Hr. apply Rt. apply in_or_app. auto.
    - intros k k' r t B. apply (Or k k' r t). now apply before_app_l.
  Qed.
  Lemma apart_more h h' : apart_when_concurrent h -> Forall is_ret h' -> apart_when_concurrent (h ++ h').
  Proof.
    intros A F c t o c' t' o' I1 I2 N. rewrite Forall_forall in F.
    assert (forall c t o, In (Inv c t o) (h ++ h') -> In (Inv c t o) h) as G.
    { intros c0 t0 o0 I0. apply in_app_or in I0 as [I0|I0]; [exact I0|]. destruct (F _ I0) as (? & ? & X). discriminate. }
    destruct (A c t o c' t' o' (G _ _ _ I1) (G _ _ _ I2) N) as [(r & B)|[(r & B)|X]]; [left|right; left|auto]; exists r; now apply before_app_l.
  Qed.
  Lemma at_moment s k : keyed H (r_db s) -> rreach s k -> apart_when_concurrent (rc_hist k) ->
    exists s', linearizable step s (rc_hist k) s' /\ r_db s' = rc_db k.
  Proof.
    intros K R A. destruct (as_if_finished R) as (k3 & R3 & Id & D & l & Eh & F).
    destruct (@apart_linearizable H enc dec (fun _ => True) s k3 K R3) as (s' & (lc & X) & Fi).
    - rewrite Eh. now apply apart_more.
    - exists s'. split; [|rewrite <- D; apply Fi; exact Id]. exists lc. rewrite Eh in X. eapply explains_prefix; eauto.
  Qed.
  (** As C28, but not only when no call is in progress: at every moment, what the
      database holds is explained by an order of the calls made so far that agrees
      with all results and with real time. *)
  Theorem C28_rdb_apart_moment_partial h k : rreach (rdb_run H enc dec h) k -> apart_when_concurrent (rc_hist k) ->
    exists s', linearizable step (rdb_run H enc dec h) (rc_hist k) s' /\ r_db s' = rc_db k.
  Proof. apply at_moment. apply run_keyed. Qed.

  (** ** Crashes *)

  Inductive goes : rconfig -> rconfig -> Prop :=
  | Goes0 k : goes k k
  | GoesS k k1 k2 : goes k k1 -> rstep H enc dec k1 k2 -> envs E k2 -> goes k k2.

  (** The life of a database.  Threads make calls until, at moment [k], the process
      dies or the machine does.  RocksDB recovers a prefix of its write-ahead log:
      the database as it was at some earlier moment [k1], and not before any
      [sync] was called that had returned [Ok] (RdbCrash.v says the same of the
      log; rdb/datastore.rs 245-256).  Then it is opened again (rdb/datastore.rs
      374-425). *)
  Inductive rocks_life : list history -> rstate -> Prop :=
  | RL0 : rocks_life [] rdb_empty
  | RL1 hs s k1 k s2 : rocks_life hs s -> rreach s k1 -> goes k1 k ->
      (forall c t, In (Inv c t OSync) (rc_hist k) -> In (Ret c (Ok RUnit)) (rc_hist k) -> In (Inv c t OSync) (rc_hist k1)) ->
      rdb_open (rc_db k1) = Ok s2 -> rocks_life (hs ++ [rc_hist k]) s2.

  (** *** Specification *)
  Definition as_events (l : list call) : list RdbCrash.event := map (fun x => RdbCrash.Call (c_env x) (c_op x)) l.
  (** [evs]: calls made one at a time, and crashes that undo nothing, as in C23.
      Of each session's history [h] they explain a beginning [h1], which has
      everything that happened before a [sync] was called that returned [Ok]. *)
  Inductive as_sequential : list history -> list RdbCrash.event -> rstate -> Prop :=
  | AS0 : as_sequential [] [] rdb_empty
  | AS1 hs evs s h h1 h2 l s' n : as_sequential hs evs s -> h = h1 ++ h2 ->
      (forall x c t, before h x (Inv c t OSync) -> In (Ret c (Ok RUnit)) h -> In x h1) ->
      explains step s h1 s' l ->
      events fresh_node (evs ++ as_events l ++ [Crash (length l)]) = Ok n ->
      as_sequential (hs ++ [h]) (evs ++ as_events l ++ [Crash (length l)]) (n_state n).

  (** *** Proof *)
  Definition inv_once (h : history) : Prop := forall i j c t o t' o', nth_error h i = Some (Inv c t o) -> nth_error h j = Some (Inv c t' o') -> i = j.
  Record hist_ok (k : rconfig) : Prop := {
    ho_once : inv_once (rc_hist k);
    ho_old : forall c t o, In (Inv c t o) (rc_hist k) -> c < rc_next k }.
  Lemma once_ret h c r : inv_once h -> inv_once (h ++ [Ret c r]).
  Proof.
    intros O i j c1 t o t' o' A B.
    assert (forall n c2 t2 o2, nth_error (h ++ [Ret c r]) n = Some (Inv c2 t2 o2) -> nth_error h n = Some (Inv c2 t2 o2)) as G.
    { intros n c2 t2 o2 X. destruct (Nat.lt_ge_cases n (length h)) as [L|L]; [now rewrite nth_error_app1 in X|].
      rewrite nth_error_app2 in X by lia. destruct (n - length h) as [|[|m]]; discriminate. }
    eapply O; eauto.
  Qed.
  Lemma once_inv h c t o : inv_once h -> (forall t o, ~ In (Inv c t o) h) -> inv_once (h ++ [Inv c t o]).
  Proof.
    intros O N i j c1 t1 o1 t2 o2 A B.
    assert (forall n c2 t2 o2, nth_error (h ++ [Inv c t o]) n = Some (Inv c2 t2 o2) -> nth_error h n = Some (Inv c2 t2 o2) \/ n = length h /\ c2 = c) as G.
    { intros n c2 t3 o3 X. destruct (Nat.lt_ge_cases n (length h)) as [L|L]; [left; now rewrite nth_error_app1 in X|].
      rewrite nth_error_app2 in X by lia. destruct (n - length h) as [|[|m]] eqn:En; try discriminate. cbn in X. inversion X. right. split; [lia|reflexivity]. }
    destruct (G _ _ _ _ A) as [A'|[-> ->]], (G _ _ _ _ B) as [B'|[-> Ec]]; [eauto|..]; subst; auto.
    - exfalso. eapply N. eapply nth_error_In; eauto.
    - exfalso. eapply N. eapply nth_error_In; eauto.
  Qed.
  Lemma hist_step k k' : hist_ok k -> rstep H enc dec k k' -> hist_ok k' /\ exists l, rc_hist k' = rc_hist k ++ l.
  Proof.
    intros [O Ol] St. destruct St; cbn [rc_hist rc_next];
      try (split; [split; assumption|exists []; now rewrite app_nil_r]); (split; [split|eauto]); cbn [rc_hist rc_next].
    - apply once_inv; [assumption|]. intros t0 o0 X. apply Ol in X. lia.
    - intros c0 t0 o0 X. apply in_app_or in X as [X|[X|[]]]; [apply Ol in X; lia|inversion X; lia].
    - now apply once_ret.
    - intros c0 t0 o0 X. apply in_app_or in X as [X|[X|[]]]; [eauto|discriminate].
  Qed.
  Lemma hist_reach s k : rreach s k -> hist_ok k.
  Proof.
    induction 1 as [|k k' R IH St En]; [|eapply hist_step; eauto]. split; cbn; [|easy]. intros [|i] j c t o t' o' X; discriminate.
  Qed.
  Lemma goes_reach s k1 k : rreach s k1 -> goes k1 k -> rreach s k /\ exists l, rc_hist k = rc_hist k1 ++ l.
  Proof.
    intros R G. induction G as [|k1 k2 k3 G IH St En]; [split; [exact R|exists []; now rewrite app_nil_r]|].
    destruct (IH R) as (R2 & l & El). split; [econstructor; eauto|].
    destruct (hist_step (hist_reach R2) St) as (_ & l' & El'). exists (l ++ l'). now rewrite El', El, app_assoc.
  Qed.
  Lemma prefix_before h1 h2 x c t o : inv_once (h1 ++ h2) -> In (Inv c t o) h1 -> before (h1 ++ h2) x (Inv c t o) -> In x h1.
  Proof.
    intros O I (a & b & d & Eq).
    apply In_nth_error in I as (j & J). pose proof (proj1 (nth_error_Some h1 j) ltac:(congruence)) as Lj.
    assert (nth_error (h1 ++ h2) (length a + S (length b)) = Some (Inv c t o)) as N1.
    { rewrite Eq, nth_error_app2 by lia. replace (length a + S (length b) - length a) with (S (length b)) by lia. cbn.
      rewrite nth_error_app2, Nat.sub_diag by lia. reflexivity. }
    assert (nth_error (h1 ++ h2) j = Some (Inv c t o)) as N2 by (rewrite nth_error_app1 by lia; exact J).
    pose proof (O _ _ _ _ _ _ _ N1 N2).
    assert (nth_error (h1 ++ h2) (length a) = Some x) as N3 by (rewrite Eq, nth_error_app2, Nat.sub_diag by lia; reflexivity).
    rewrite nth_error_app1 in N3 by lia. eapply nth_error_In; eauto.
  Qed.
  Lemma apart_prefix h1 h2 : inv_once (h1 ++ h2) -> apart_when_concurrent (h1 ++ h2) -> apart_when_concurrent h1.
  Proof.
    intros O A c t o c' t' o' I1 I2 N.
    assert (forall x c t o, In (Inv c t o) h1 -> before (h1 ++ h2) x (Inv c t o) -> before h1 x (Inv c t o)) as G.
    { intros x c0 t0 o0 I0 B. destruct B as (a & b & d & Eq).
      apply In_nth_error in I0 as (j & J). pose proof (proj1 (nth_error_Some h1 j) ltac:(congruence)) as Lj.
      assert (nth_error (h1 ++ h2) (length a + S (length b)) = Some (Inv c0 t0 o0)) as N1.
      { rewrite Eq, nth_error_app2 by lia. replace (length a + S (length b) - length a) with (S (length b)) by lia. cbn.
        rewrite nth_error_app2, Nat.sub_diag by lia. reflexivity. }
      assert (nth_error (h1 ++ h2) j = Some (Inv c0 t0 o0)) as N2 by (rewrite nth_error_app1 by lia; exact J).
      pose proof (O _ _ _ _ _ _ _ N1 N2) as <-.
      destruct (nth_error_split _ _ J) as (p & q & -> & Lp).
      assert (nth_error (p ++ Inv c0 t0 o0 :: q) (length a) = Some x) as N3.
      { assert (nth_error ((p ++ Inv c0 t0 o0 :: q) ++ h2) (length a) = Some x) as N4 by (rewrite Eq, nth_error_app2, Nat.sub_diag by lia; reflexivity).
        rewrite nth_error_app1 in N4 by lia. exact N4. }
      rewrite nth_error_app1 in N3 by lia. destruct (nth_error_split _ _ N3) as (p1 & p2 & -> & _). exists p1, p2, q. now rewrite <- app_assoc. }
    destruct (A c t o c' t' o') as [(r & B)|[(r & B)|X]]; auto; try (apply in_or_app; auto); [left|right; left]; exists r; eauto.
  Qed.

  Definition good_session (h : history) : Prop := forall c t o, In (Inv c t o) h -> good_op enc dec o.
  Definition size (hs : list history) : nat := length (concat hs) + length hs.

  Lemma calls_bound s h s' l : explains step s h s' l -> length l <= length h.
  Proof.
    intros X. rewrite <- (map_length (@c_id _ _ _) l).
    set (f := fun x : gevent op (outcome res) => match x with Inv c _ _ => c | Ret _ _ => 0 end).
    rewrite <- (map_length f h).
    assert (NoDup (map (@c_id _ _ _) l) /\ incl (map (@c_id _ _ _) l) (map f h)) as [ND In1].
    { split; [apply (ex_once X)|]. intros c Hc. apply in_map_iff in Hc as (k & <- & Hk). destruct (ex_sound X k Hk) as [(t & It) _].
      apply in_map_iff. exists (Inv (c_id k) t (c_op k)). auto. }
    now apply NoDup_incl_length.
  Qed.
  Lemma log_bound s h : length (r_log (run_from s h)) <= length (r_log s) + length h.
  Proof.
    induction h as [|x h IH] using rev_ind; [cbn; lia|]. rewrite run_from_snoc, app_length. cbn.
    destruct (exec_one_write H enc dec (fst x) (run_from s h) (snd x)) as [[_ G]|(b & _ & G)]; rewrite G; [lia|]. rewrite app_length. cbn. lia.
  Qed.

  (** What is known of a database that has just been opened. *)
  Definition opened (evs : list RdbCrash.event) (s : rstate) : Prop :=
    keyed H (r_db s) /\ meta_inv H enc dec s [] /\ r_log s = [] /\ length (keys (r_indexed s)) <= length evs /\
    exists n, events fresh_node evs = Ok n /\ n_state n = s /\ n_disk n = r_db s.

  Lemma opened_new : opened [] rdb_empty.
  Proof.
    unfold opened. conj; [apply (run_keyed H enc dec [])| |reflexivity|apply le_n|exists fresh_node; conj; reflexivity].
    exists l_empty. conj; [apply rep_db_empty|constructor|intros n []|intros n Hn; discriminate].
  Qed.
  Lemma session_end evs s k1 : opened evs s -> rreach s k1 -> apart_when_concurrent (rc_hist k1) -> good_session (rc_hist k1) ->
    (N.of_nat (length evs + length (rc_hist k1)) < 2 ^ 64)%N ->
    exists l s' n s2, explains step s (rc_hist k1) s' l /\ rdb_open (rc_db k1) = Ok s2 /\
      events fresh_node (evs ++ as_events l ++ [Crash (length l)]) = Ok n /\ n_state n = s2 /\ length l <= length (rc_hist k1) /\
      opened (evs ++ as_events l ++ [Crash (length l)]) s2.
  Proof.
    intros (K & M & L0 & Sz & n0 & E0 & Ns & Nd) R A G Bd.
    destruct (at_moment K R A) as (s' & (l & X) & D). pose proof (calls_bound X) as Cb.
    set (h := map (fun x : call => (c_env x, c_op x)) l).
    assert (run_from s h = s') as Rn by (apply (sequential_run step l s s'), (ex_legal X)).
    assert (good_history enc dec h) as Gh.
    { apply Forall_forall. intros x Hx. apply in_map_iff in Hx as (y & <- & Hy). cbn. destruct (ex_sound X y Hy) as [(t & It) _]. eauto. }
    assert (as_events l = as_calls h) as Ae by (unfold as_events, as_calls, h; now rewrite map_map).
    assert (length h = length l) as Lh by (unfold h; apply map_length).
    pose proof (meta_inv_run M Gh) as Mi. rewrite Rn in Mi. pose proof (indexed_grows H enc dec s h) as Gr. rewrite Rn in Gr.
    destruct (reopen_any Mi) as (s2 & Eo & Ed & Lg & Mi2 & Le & _); [lia|].
    destruct (events_calls H enc dec h n0) as (n1 & E1 & Ed1 & Es1).
    pose proof (log_bound s h) as Lb. rewrite L0 in Lb. cbn in Lb.
    assert (events fresh_node (evs ++ as_events l ++ [Crash (length l)]) = Ok (Node (r_db s') s2 0)) as Ev.
    { rewrite events_app, E0. cbn [obind]. rewrite events_app, Ae, E1. cbn [obind RdbCrash.events event_step].
      rewrite Ed1, Nd, Es1, Ns, firstn_all2 by lia. rewrite <- (proj1 (replay_log H enc dec s h L0)), Rn, Eo. reflexivity. }
    rewrite D in Eo. exists l, s'. eexists. exists s2. split; [exact X|]. split; [exact Eo|]. split; [exact Ev|]. split; [reflexivity|]. split; [exact Cb|].
    unfold opened. conj; auto.
    - rewrite Ed. clear - K Rn. rewrite <- Rn. clear Rn. revert s K. induction h as [|[e o] h IH]; intros s K; [exact K|]. apply IH. now apply step_keyed.
    - rewrite !app_length, Ae. unfold as_calls. rewrite map_length. cbn. lia.
    - eexists. split; [exact Ev|]. cbn. rewrite Ed. auto.
  Qed.
  Lemma size_snoc hs h : size (hs ++ [h]) = size hs + S (length h).
  Proof. unfold size. rewrite concat_app, !app_length. cbn. rewrite app_nil_r. lia. Qed.
  Lemma sequential_life hs s : rocks_life hs s -> Forall apart_when_concurrent hs -> Forall good_session hs -> (N.of_nat (size hs) < 2 ^ 64)%N ->
    exists evs, as_sequential hs evs s /\ opened evs s /\ length evs <= size hs.
  Proof.
    induction 1 as [|hs s k1 k s2 L IH R G Sy Eo]; intros A Gd Sz; [exists []; conj; [constructor|apply opened_new|cbn; lia]|].
    apply Forall_app in A as [A Ak]. apply Forall_inv in Ak. apply Forall_app in Gd as [Gd Gk]. apply Forall_inv in Gk. rewrite size_snoc in Sz.
    destruct IH as (evs & As & Op & Le); auto; [lia|].
    destruct (goes_reach R G) as (Rk & h2 & Eh). pose proof (ho_once (hist_reach Rk)) as O. rewrite Eh in *.
    destruct (session_end Op R) as (l & s' & n & s3 & X & Eo3 & Ev & Es & Cb & Op2).
    - eapply apart_prefix; eauto.
    - intros c t o I. eapply Gk. apply in_or_app. eauto.
    - rewrite app_length in Sz. lia.
    - rewrite Eo in Eo3. inversion Eo3; subst s3. exists (evs ++ as_events l ++ [Crash (length l)]). conj; auto.
      + eapply AS1; eauto. intros x c t B I. eapply prefix_before; [exact O| |exact B]. apply Sy; [now apply before_in in B|exact I].
      + rewrite size_snoc, !app_length. unfold as_events. rewrite map_length. cbn. lia.
  Qed.

  (** Any number of threads, any number of crashes at any moments: if calls that
      overlap do not interfere, all results before the crashes and the database
      after the last one are those of calls made one at a time.  In that order
      nothing is missing that was answered before a [sync] was called which
      returned [Ok]; a call cut off by a crash is there at most once, as a whole. *)
  Theorem C61_rdb_explained_partial hs s : rocks_life hs s -> Forall apart_when_concurrent hs -> Forall good_session hs -> (N.of_nat (size hs) < 2 ^ 64)%N ->
    exists evs, as_sequential hs evs s.
  Proof. intros L A G S. destruct (sequential_life L A G S) as (evs & X & _). eauto. Qed.

  (** And whatever moment a crash leaves, the database opens. *)
  Theorem C61_rdb_opens_partial hs s k1 : rocks_life hs s -> rreach s k1 ->
    Forall apart_when_concurrent (hs ++ [rc_hist k1]) -> Forall good_session (hs ++ [rc_hist k1]) -> (N.of_nat (size (hs ++ [rc_hist k1])) < 2 ^ 64)%N ->
    exists s2, rdb_open (rc_db k1) = Ok s2.
  Proof.
    intros L R A G Sz. apply Forall_app in A as [A Ak]. apply Forall_inv in Ak. apply Forall_app in G as [Gd Gk]. apply Forall_inv in Gk. rewrite size_snoc in Sz.
    destruct (sequential_life L A Gd) as (evs & As & Op & Le); [lia|].
    destruct (session_end Op R Ak Gk) as (l & s' & n & s3 & X & Eo3 & _); [lia|]. eauto.
  Qed.
End Rocks.

(** Concrete case: a vertex is created and [sync] returns; two threads create
    another vertex each, one call has written and the other not when the last
    surviving moment comes; both return, and then the machine dies.  After
    reopening there are two vertices. *)
Lemma schedule_partial s l k : schedule hash0 enc0 dec0 2 l (rconfig0 s) = Some k -> all_ok l = true -> rreach hash0 enc0 dec0 succeeds s k /\ beyond 2 k.
Proof.
  intros Sc A. apply (@schedule_sound hash0 enc0 dec0 2 succeeds s l k Sc). intros t e o Hx. unfold all_ok in A. rewrite forallb_forall in A. exact (A _ Hx).
Qed.
Lemma reach_envs s k : rreach hash0 enc0 dec0 succeeds s k -> envs succeeds k.
Proof. intros R. destruct R; [intros ? ? ? ? ? X; discriminate X|assumption]. Qed.
Lemma go_goes k t : forall n k1 k', go 2 n k1 t = Some k' -> goes hash0 enc0 dec0 succeeds k k1 -> envs succeeds k1 -> beyond 2 k1 ->
  goes hash0 enc0 dec0 succeeds k k' /\ envs succeeds k' /\ beyond 2 k'.
Proof.
  induction n as [|n IH]; intros k1 k' G Gk En B; cbn in G; [inversion G; subst; auto|].
  destruct (go1 2 k1 t) as [k2|] eqn:G1; [|discriminate]. destruct (@go1_step hash0 enc0 dec0 2 succeeds k1 t k2 G1 En B) as (A & A1 & A2).
  eapply IH; eauto. econstructor; eauto.
Qed.
Definition session1 : list act := [Begin 0 ok_env (OCreateVertex v1); Go 0 3; Begin 0 ok_env OSync; Go 0 1;
  Begin 0 ok_env (OCreateVertex v2); Begin 1 ok_env (OCreateVertex v3); Go 0 2].
Definition session2 : list act := [Begin 1 ok_env (OGet (QCount QAllVertex)); Go 1 2].
Definition hist1 : list (gevent op (outcome res)) :=
  [Inv 0 0 (OCreateVertex v1); Ret 0 (Ok (RBoolean true)); Inv 1 0 OSync; Ret 1 (Ok RUnit); Inv 2 0 (OCreateVertex v2); Inv 3 1 (OCreateVertex v3);
   Ret 2 (Ok (RBoolean true)); Ret 3 (Ok (RBoolean true))].
Definition hist2 : list (gevent op (outcome res)) := [Inv 0 1 (OGet (QCount QAllVertex)); Ret 0 (Ok (ROut [Count 2]))].
Lemma apart23 : apart (OCreateVertex v2) (OCreateVertex v3) /\ apart (OCreateVertex v3) (OCreateVertex v2).
Proof.
  assert (forall o o', apart o o' -> apart o' o) as Sym by (intros o o' (N1 & N2 & D); split; [exact N2|split; [exact N1|]]; intros x; split; apply D).
  assert (apart (OCreateVertex v2) (OCreateVertex v3)) as A; [|auto].
  split; [discriminate|split; [discriminate|]]. intros x. cbn. split; intros; subst; discriminate.
Qed.
Lemma hist1_apart : apart_when_concurrent hist1.
Proof.
  intros c t o c' t' o' I I' N. cbn in I, I'.
  repeat (destruct I as [I|I]; [try discriminate I; injection I as <- <- <-|]); [..|destruct I];
    repeat (destruct I' as [I'|I']; [try discriminate I'; injection I' as <- <- <-|]); try (destruct I'; fail); try (now elim N);
    first [right; right; apply apart23|left; eexists; first [apply (@before_nth _ _ 1 2); reflexivity|apply (@before_nth _ _ 1 4); reflexivity|apply (@before_nth _ _ 1 5); reflexivity|apply (@before_nth _ _ 3 4); reflexivity|apply (@before_nth _ _ 3 5); reflexivity]
          |right; left; eexists; first [apply (@before_nth _ _ 1 2); reflexivity|apply (@before_nth _ _ 1 4); reflexivity|apply (@before_nth _ _ 1 5); reflexivity|apply (@before_nth _ _ 3 4); reflexivity|apply (@before_nth _ _ 3 5); reflexivity]].
Qed.
Lemma some_val {A} (o : option A) d : match o with Some _ => true | None => false end = true -> o = Some (match o with Some x => x | None => d end).
Proof. now destruct o. Qed.
Definition sched (s : rstate) (l : list act) : rconfig := match schedule hash0 enc0 dec0 2 l (rconfig0 s) with Some k => k | None => rconfig0 s end.
Definition goes_on (k : rconfig) (t n : nat) : rconfig := match go 2 n k t with Some k => k | None => k end.
Definition again (k : rconfig) : rstate := match rdb_open (rc_db k) with Ok s => s | _ => rdb_empty end.
Lemma again_ok k : match rdb_open (rc_db k) with Ok _ => true | _ => false end = true -> rdb_open (rc_db k) = Ok (again k).
Proof. unfold again. now destruct (rdb_open (rc_db k)). Qed.
Definition moment1 : rconfig := sched rdb_empty session1.
Definition reopened : rstate := again moment1.
Example C61_rocksdb_case : exists s, rocks_life hash0 enc0 dec0 succeeds [hist1; hist2] s /\
  Forall apart_when_concurrent [hist1; hist2] /\ Forall (good_session enc0 dec0) [hist1; hist2] /\ (N.of_nat (size [hist1; hist2]) < 2 ^ 64)%N.
Proof.
  exists (again (sched reopened session2)). split; [|split; [|split]].
  - assert (rreach hash0 enc0 dec0 succeeds rdb_empty moment1 /\ beyond 2 moment1) as [R1 B1].
    { apply schedule_partial with (l := session1); [|reflexivity]. apply some_val. vm_compute. reflexivity. }
    assert (envs succeeds moment1) as E1 by (exact (reach_envs R1)).
    assert (goes hash0 enc0 dec0 succeeds moment1 (goes_on moment1 0 1) /\ envs succeeds (goes_on moment1 0 1) /\ beyond 2 (goes_on moment1 0 1)) as (G2 & E2 & B2).
    { apply (@go_goes moment1 0 1 moment1); [apply some_val; vm_compute; reflexivity|constructor|exact E1|exact B1]. }
    assert (goes hash0 enc0 dec0 succeeds moment1 (goes_on (goes_on moment1 0 1) 1 3)) as G3.
    { apply (@go_goes moment1 1 3 (goes_on moment1 0 1)); [apply some_val; vm_compute; reflexivity|exact G2|exact E2|exact B2]. }
    assert (rreach hash0 enc0 dec0 succeeds reopened (sched reopened session2)) as R2.
    { apply schedule_partial with (l := session2); [|reflexivity]. apply some_val. vm_compute. reflexivity. }
    change [hist1; hist2] with (([] ++ [hist1]) ++ [hist2]).
    replace hist2 with (rc_hist (sched reopened session2)) by (vm_compute; reflexivity).
    apply RL1 with (s := reopened) (k1 := sched reopened session2); [|exact R2|constructor|auto|apply again_ok; vm_compute; reflexivity].
    replace hist1 with (rc_hist (goes_on (goes_on moment1 0 1) 1 3)) by (vm_compute; reflexivity).
    apply RL1 with (s := rdb_empty) (k1 := moment1); [constructor|exact R1|exact G3| |apply again_ok; vm_compute; reflexivity].
    replace (rc_hist (goes_on (goes_on moment1 0 1) 1 3)) with hist1 by (vm_compute; reflexivity).
    replace (rc_hist moment1) with (firstn 6 hist1) by (vm_compute; reflexivity).
    intros c t I _. cbn in I |- *. repeat (destruct I as [I|I]; [try discriminate I; injection I as <- <-; tauto|]). destruct I.
  - constructor; [apply hist1_apart|constructor; [|constructor]]. intros c t o c' t' o' I I' N.
    destruct I as [I|[I|[]]]; [|discriminate I]. destruct I' as [I'|[I'|[]]]; [|discriminate I']. inversion I; inversion I'; subst. now elim N.
  - repeat constructor; intros c t o I; cbn in I; repeat (destruct I as [I|I]; [try discriminate I; injection I as <- <- <-; exact Logic.I|]); destruct I.
  - vm_compute. reflexivity.
Qed.
