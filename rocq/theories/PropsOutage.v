(** * C61: concurrent clients of a server that is killed and started again. *)
From Verif Require Import Base OMap Json Types Util Db Mem Spec QueryFacts MemFacts MemHist PropsMem PropsMemIndex Examples
  MsgPack Image MemSame Persist PropsPersist PropsRdbIndex Proto ProtoFacts Server PropsProto PluginProg PropsServer Deploy DeployPlugins PropsDeploy PropsDeployPlugins.
From Verif Require Import Conc Killable.

Set Implicit Arguments.
Local Open Scope list_scope.
Local Notation bytes := (list byte).
Local Notation before := Conc.before.

Section Outage.
  Variable alnum : N -> bool.
  Variable enc : json -> bytes.
  Variable dec : bytes -> option json.
  Variable codes : list (bytes * code).
  Variable dbg : bool.
  Variable d : nat.
  Notation lim := (d + 6)%nat.
  Notation q_trace := (q_trace alnum enc dec codes dbg lim).
  Notation q_step := (q_step alnum enc dec codes dbg lim).
  Notation qhandle := (qhandle alnum enc dec codes dbg).
  Notation qresponses := (qresponses alnum enc dec codes dbg).
  Notation library := (library alnum enc dec codes dbg lim).
  Notation asks_made := (asks_made alnum enc dec codes dbg d).
  Notation begun := (begun alnum dec codes dbg).

  (** What a request's handling depends on: see [asked]. *)
  Definition chance : Type := penv * uuid * (nat -> penv).
  (** How the server was killed: no request had touched the database, or at a
      moment of the handling of one ([QKilled] of DeployPlugins.v). *)
  Definition outage : Type := option (asked penv * nat * nat).
  Definition event_of (e : chance) (o : request + outage) : qevent :=
    match o with
    | inl rq => QAsk (Asked (fst (fst e)) (snd (fst e)) (snd e) rq)
    | inr None => QRestart
    | inr (Some (a, j, k)) => QKilled a j k
    end.
  Definition out_step (s : pstate) (x : chance * (request + outage)) : option (srv response) * pstate :=
    q_step s (event_of (fst x) (snd x)).
  (** Requests that do not wait for the mutex: those that make no call
      (memory/datastore.rs 436-458), and those nobody listens to. *)
  Definition unlocked (s : pstate) (rq : request) (r : option (srv response)) : Prop :=
    match p_up s with
    | None => r = None
    | Some _ => exists resp, r = Some resp /\ forall x a, a_req a = rq -> qhandle x a = (resp, x)
    end.
  Lemma unlocked_ok s rq r e : unlocked s rq r -> out_step s (e, inl rq) = (r, s).
  Proof.
    unfold unlocked, out_step. cbn [fst snd event_of DeployPlugins.q_step]. destruct s as [[st|] k]; cbn [p_up p_disk].
    - intros (resp & -> & X). match goal with |- context [DeployPlugins.qhandle _ _ _ _ _ ?y ?a] => rewrite (X y a eq_refl) end. reflexivity.
    - now intros ->.
  Qed.
  (** A kill in the middle of a request hits the one that holds the mutex. *)
  Definition strikes (held : option request) (w : outage) : Prop :=
    match w with
    | None => True
    | Some (a, _, _) => held = Some (a_req a)
    end.
  Definition out_reach := kreach out_step unlocked strikes p_new.

  Notation call := (gcall (request + outage) (option (srv response)) chance).
  Definition happened (x : call) : qevent := event_of (c_env x) (c_op x).
  Definition is_request (x : call) : Prop := exists rq, c_op x = inl rq.
  Definition is_kill (x : call) : Prop := exists w, c_op x = inr w.

  Lemma as_life l : forall s s', sequential out_step s l s' -> q_trace s (map happened l) = (map (@c_res _ _ _) l, s').
  Proof.
    induction l as [|x l IH]; intros s s' Q; cbn in Q; [now subst|]. destruct Q as (s1 & E & Q).
    cbn [map DeployPlugins.q_trace]. unfold out_step in E. cbn [fst snd] in E. unfold happened at 1. rewrite E, (IH _ _ Q). reflexivity.
  Qed.

  (** Whatever the interleaving and whenever the server is killed, requests and
      kills can be put in an order that explains every response and the database
      and file at the end as the life of a server that handles one request after
      the other; the order agrees with real time; a request that was in progress
      at a kill is never answered and has its effects before the kill or never. *)
  Theorem C61_memory_explained k : out_reach k -> exists l,
    explains_kills out_step p_new (k_hist k) (k_shared k) l /\ q_trace p_new (map happened l) = (map (@c_res _ _ _) l, k_shared k).
  Proof.
    intros R. destruct (killable_linearizable unlocked_ok R) as (l & X). exists l. split; [exact X|].
    apply as_life, (ex_legal (ek_explains X)).
  Qed.

  (** What the server says after that is what C50 says of such a life. *)
  Theorem C61_memory_restored_partial k : out_reach k -> exists l,
    explains_kills out_step p_new (k_hist k) (k_shared k) l /\
    (syncs_fit d lim dbg (library p_new (map happened l)) ->
     exists saved live st,
       survives (combine (library p_new (map happened l)) (fst (p_trace lim dbg p_new (library p_new (map happened l))))) saved live /\
       p_up (k_shared k) = Some st /\
       (st = None \/ forall later z, qresponses (st, p_disk (k_shared k)) later = qresponses (mem_run dbg live, z) later)).
  Proof.
    intros R. destruct (C61_memory_explained R) as (l & X & E). exists l. split; [exact X|]. intros F.
    destruct (@C50_memory_syncing_plugins_partial alnum enc dec codes dbg d _ _ _ F E) as (saved & live & st & SV & _ & U & A). exists saved, live, st. auto.
  Qed.

  Lemma asks_of lb : (forall x, In x lb -> is_request x) -> exists la, map happened lb = map (@QAsk) la.
  Proof.
    induction lb as [|x lb IH]; intros F; [now exists []|]. destruct IH as (la & E); [intros y Hy; apply F; now right|].
    destruct (F x) as (rq & Q); [now left|]. cbn [map]. rewrite E. unfold happened. rewrite Q. eexists (_ :: la). reflexivity.
  Qed.

  (** The requests of a list of calls. *)
  Definition asked_of (x : call) : list (asked penv) := asks (happened x).

  (** An acknowledged [sync].  In the order above, with [lb] the requests between
      it and the next kill: everything that was answered before the [sync] was
      sent comes before it; and after the kill the server runs, with a database
      that has had everything before the [sync], and of the calls made since then
      just those up to some later [sync]. *)
  Theorem C61_memory_synced_partial k : out_reach k -> exists l,
    explains_kills out_step p_new (k_hist k) (k_shared k) l /\
    forall la y lb z lc, l = la ++ y :: lb ++ z :: lc ->
      c_op y = inl RqSync -> c_res y = Some (SOk RsEmpty) -> (forall x, In x lb -> is_request x) -> is_kill z ->
      syncs_fit d lim dbg (library p_new (map happened (la ++ y :: lb ++ [z]))) ->
      (forall c t t' rq r, before (k_hist k) (Ret c r) (Inv (c_id y) t' (c_op y)) -> In (Inv c t rq) (k_hist k) -> exists e, In (Call c e rq r) la) /\
      let s1 := snd (q_trace p_new (map happened la)) in
      let s2 := snd (q_step s1 (happened y)) in
      let s3 := snd (q_trace s2 (map happened lb)) in
      exists m1 cs1 cs2 m m4, p_up s1 = Some (Some m1) /\
        asks_made s2 (flat_map asked_of lb) ++ begun s3 (happened z) = cs1 ++ cs2 /\ ends_in_sync cs1 /\
        replayed dbg (Some m1) cs1 = Some m /\ p_up (snd (q_step s3 (happened z))) = Some (Some m4) /\
        forall later z z', qresponses (Some m4, z) later = qresponses (Some m, z') later.
  Proof.
    intros R. destruct (C61_memory_explained R) as (l & X & E). exists l. split; [exact X|].
    intros la y lb z lc El Oy Ry Req (w & Ow) F. split.
    - intros c t t' rq r B Hi. destruct (ex_complete (ek_explains X) c t rq r Hi) as (e & Hc); [now apply before_in in B|].
      exists e. 
      destruct (ex_order (ek_explains X) (Call c e rq r) y B Hc) as (l1 & l2 & l3 & E2); [subst l; apply in_or_app; right; now left|].
      pose proof (ex_once (ek_explains X)) as ND. rewrite El in E2.
      assert (forall (A B : list call) C D, A ++ y :: B = C ++ y :: D -> NoDup (map (@c_id _ _ _) (A ++ y :: B)) -> A = C) as U.
      { clear. induction A as [|a A IH]; intros B C D Q N; destruct C as [|c C]; cbn in Q; inversion Q; subst; try reflexivity.
        - exfalso. cbn in N. inversion N as [|? ? N1 N2]; subst. apply N1. rewrite map_app. apply in_or_app. right. now left.
        - exfalso. cbn in N. inversion N as [|? ? N1 N2]; subst. apply N1. rewrite map_app. apply in_or_app. right. now left.
        - f_equal. eapply IH; eauto. now inversion N. }
      change (Call c e rq r :: l2 ++ y :: l3) with ((Call c e rq r :: l2) ++ y :: l3) in E2. rewrite app_assoc in E2.
      rewrite El in ND. rewrite (U _ _ _ _ E2 ND). apply in_or_app. right. now left.
    - intros s1 s2 s3.
      pose proof (ex_legal (ek_explains X)) as Q. subst l.
      assert (forall l1 l2 s s', sequential out_step s (l1 ++ l2) s' -> exists s1, sequential out_step s l1 s1 /\ sequential out_step s1 l2 s') as Cut.
      { clear. induction l1 as [|x l1 IH]; intros l2 s s' Q; [now exists s|]. cbn in Q. destruct Q as (s1 & E & Q).
        destruct (IH _ _ _ Q) as (s2 & Q1 & Q2). exists s2. split; [cbn; eauto|exact Q2]. }
      destruct (Cut _ _ _ _ Q) as (t1 & Q1 & Q2). cbn [sequential] in Q2. destruct Q2 as (t2 & Ey & Q2). destruct (Cut _ _ _ _ Q2) as (t3 & Q3 & _).
      pose proof (@as_life _ _ _ Q1) as T1. pose proof (@as_life _ _ _ Q3) as T3. unfold out_step in Ey. cbn [fst snd] in Ey. fold (happened y) in Ey.
      assert (s1 = t1) as -> by (unfold s1; now rewrite T1).
      assert (s2 = t2) as -> by (unfold s2; now rewrite Ey).
      assert (s3 = t3) as -> by (unfold s3; now rewrite T3).
      set (a := Asked (fst (fst (c_env y))) (snd (fst (c_env y))) (snd (c_env y)) RqSync).
      assert (happened y = QAsk a) as Hy by (unfold happened; rewrite Oy; reflexivity). rewrite Hy, Ry in *.
      assert (exists m1, p_up t1 = Some (Some m1)) as (m1 & U1).
      { cbn [DeployPlugins.q_step] in Ey. destruct (p_up t1) as [[m1|]|]; [eauto| |discriminate].
        unfold DeployPlugins.qhandle, handle in Ey. cbn [a a_req serve] in Ey. unfold blocking, sync_step, path_step in Ey. cbn in Ey. discriminate. }
      assert (map happened lb = map (@QAsk) (flat_map asked_of lb)) as Hb.
      { clear - Req. induction lb as [|x lb IH]; [reflexivity|]. cbn [map flat_map]. rewrite map_app, IH by (intros y Hy; apply Req; now right).
        destruct (Req x) as (rq & Ex); [now left|]. unfold asked_of, happened. rewrite Ex. reflexivity. }
      rewrite Hb in T3. rewrite !map_app in F. cbn [map] in F. rewrite map_app, Hb, Hy in F. cbn [map] in F.
      assert (stops (happened z)) as Sz by (unfold happened; rewrite Ow; destruct w as [[[? ?] ?]|]; exact I).
      destruct (@C50_memory_synced_by_plugins_partial alnum enc dec codes dbg d _ _ _ _ a _ _ _ _ _ T1 U1 eq_refl Ey T3 Sz F) as (cs1 & cs2 & m & m4 & A1 & A2 & A3 & A4 & A5).
      exists m1, cs1, cs2, m, m4. conj; auto.
  Qed.

  (** A request that nobody answered yet can go on, unless the server it was sent
      to is gone: no kill leaves a lock behind. *)
  Theorem C61_memory_progress k t : out_reach k -> k_threads k t <> KIdle _ _ _ -> k_threads k t <> KDead _ _ _ ->
    exists t' k', k_threads k t' <> KIdle _ _ _ /\ k_threads k' t' <> k_threads k t' /\ kstep out_step unlocked strikes k k' /\ k_next k' = k_next k.
  Proof. apply killable_progress. exact (id_order, fenv_ok, u1, fun _ => (id_order, fenv_ok)). Qed.
End Outage.

(** ** A concrete history *)

Section Case.
  Variables (Op Kill Res St Env : Type).
  Variable step : St -> Env * (Op + Kill) -> Res * St.
  Variable passes : St -> Op -> Res -> Prop.
  Variable kills : option Op -> Kill -> Prop.
  Variable init : St.
  Notation kreach := (kreach step passes kills init).
  Lemma whole_call k t o e : kreach k -> k_threads k t = KIdle _ _ _ -> k_owner k = None ->
    exists k', kreach k' /\ k_shared k' = snd (step (k_shared k) (e, inl o)) /\ k_owner k' = None /\
      k_hist k' = k_hist k ++ [Inv (k_next k) t (inl o); Ret (k_next k) (fst (step (k_shared k) (e, inl o)))] /\
      k_next k' = S (k_next k) /\ (forall t', k_threads k t' = KIdle _ _ _ -> k_threads k' t' = KIdle _ _ _).
  Proof.
    intros R T O.
    pose proof (KReachS R (KInvoke step passes kills k t o T)) as R1.
    match type of R1 with Killable.kreach _ _ _ _ ?x => set (k1 := x) in * end.
    assert (k_threads k1 t = KWaiting Res St (k_next k) o) as T1 by apply upd_eq.
    pose proof (KReachS R1 (KAcquire step passes kills k1 t T1 O)) as R2.
    match type of R2 with Killable.kreach _ _ _ _ ?x => set (k2 := x) in * end.
    assert (k_threads k2 t = KInside Res (k_next k) o (k_shared k)) as T2 by apply upd_eq.
    pose proof (KReachS R2 (KRelease step passes kills k2 t e T2)) as R3.
    match type of R3 with Killable.kreach _ _ _ _ ?x => set (k3 := x) in * end.
    assert (k_threads k3 t = KLeaving Op St (k_next k) (fst (step (k_shared k) (e, inl o)))) as T3 by apply upd_eq.
    pose proof (KReachS R3 (KReturn step passes kills k3 t T3)) as R4.
    eexists. split; [exact R4|]. conj; try reflexivity.
    - cbn. now rewrite <- app_assoc.
    - intros t' I. cbn. unfold upd. destruct (Nat.eqb t' t); [reflexivity|exact I].
  Qed.
  (** A client makes two requests; while a request of another client holds the
      lock the process is killed; the first client makes a third request. *)
  Lemma cut_short (e : Env) o1 o2 o3 w o4 : kills (Some o3) w ->
    let x1 := step init (e, inl o1) in
    let x2 := step (snd x1) (e, inl o2) in
    let x3 := step (snd x2) (e, inr w) in
    let x4 := step (snd x3) (e, inl o4) in
    exists k, kreach k /\ k_shared k = snd x4 /\
      k_hist k = [Inv 0 0 (inl o1); Ret 0 (fst x1); Inv 1 0 (inl o2); Ret 1 (fst x2); Inv 2 1 (inl o3); Inv 3 2 (inr w); Ret 3 (fst x3); Inv 4 0 (inl o4); Ret 4 (fst x4)].
  Proof.
    intros W x1 x2 x3 x4.
    destruct (@whole_call (kconf0 _ _ _ init) 0 o1 e (KReach0 step passes kills init) eq_refl eq_refl) as (k1 & R1 & S1 & O1 & H1 & N1 & I1).
    destruct (@whole_call k1 0 o2 e R1 (I1 0 eq_refl) O1) as (k2 & R2 & S2 & O2 & H2 & N2 & I2).
    pose proof (I2 1 (I1 1 eq_refl)) as T2.
    pose proof (KReachS R2 (KInvoke step passes kills k2 1 o3 T2)) as R3.
    match type of R3 with Killable.kreach _ _ _ _ ?x => set (k3 := x) in * end.
    assert (k_threads k3 1 = KWaiting Res St (k_next k2) o3) as T3 by apply upd_eq.
    pose proof (KReachS R3 (KAcquire step passes kills k3 1 T3 O2)) as R4.
    match type of R4 with Killable.kreach _ _ _ _ ?x => set (k4 := x) in * end.
    assert (forall t, t <> 1 -> k_threads k4 t = k_threads k2 t) as T4.
    { intros t Ne. unfold k4, k3. cbn. unfold upd. destruct (Nat.eqb_spec t 1); [easy|reflexivity]. }
    assert (k_threads k4 2 = KIdle _ _ _) as I4 by (rewrite T4; [apply I2, I1; reflexivity|discriminate]).
    assert (inside k4 = Some o3) as In4 by reflexivity. rewrite <- In4 in W.
    pose proof (KReachS R4 (@KKill _ _ _ _ _ step passes kills k4 2 w e I4 W)) as R5.
    match type of R5 with Killable.kreach _ _ _ _ ?x => set (k5 := x) in * end.
    assert (k_threads k5 0 = KIdle _ _ _) as I5.
    { unfold k5. cbn. rewrite (I2 0 (I1 0 eq_refl)). reflexivity. }
    destruct (@whole_call k5 0 o4 e R5 I5 eq_refl) as (k6 & R6 & S6 & O6 & H6 & _).
    cbn in S1, H1, N1. rewrite S1 in S2, H2. fold x1 in H1, S1, S2, H2. fold x2 in S2, H2. rewrite N1 in N2, H2. rewrite H1 in H2. cbn in H2.
    assert (k_shared k5 = snd x3) as S5 by (unfold k5, k4, k3; cbn; now rewrite S2).
    assert (k_hist k5 = k_hist k2 ++ [Inv 2 1 (inl o3); Inv 3 2 (inr w); Ret 3 (fst x3)]) as H5.
    { unfold k5, k4, k3. cbn. rewrite S2, N2, <- app_assoc. reflexivity. }
    assert (k_next k5 = 4) as N5 by (unfold k5, k4, k3; cbn; now rewrite N2).
    exists k6. rewrite S5, N5, H5, H2 in *. conj; auto.
  Qed.
End Case.

(** Client 0 creates a vertex and has a [sync] acknowledged; the server is killed
    while it handles client 1's request; of two vertices one is left. *)
Definition struck : outage := Some (qask (RqCreateVertex (to_vertex v2)), 0, 0).
Definition chance0 : chance := ((id_order, fenv_ok), u1, fun _ => (id_order, fenv_ok)).
Definition life0 : list qevent :=
  map (event_of chance0) [inl (RqCreateVertex (to_vertex v3)); inl RqSync; inr struck; inl (RqGet count_query)].
Example C61_case : exists k, out_reach alnum0 enc0 dec0 halves_codes true 1018 k /\
  k_hist k = [Inv 0 0 (inl (RqCreateVertex (to_vertex v3))); Ret 0 (Some (SOk (RsCreated true)));
              Inv 1 0 (inl RqSync); Ret 1 (Some (SOk RsEmpty));
              Inv 2 1 (inl (RqCreateVertex (to_vertex v2)));
              Inv 3 2 (inr struck); Ret 3 None;
              Inv 4 0 (inl (RqGet count_query)); Ret 4 (Some (SOk (RsStream [SOk (to_out enc0 (Count 1))])))] /\
  syncs_fit 1018 (1018 + 6) true (library alnum0 enc0 dec0 halves_codes true (1018 + 6) p_new life0).
Proof.
  set (st := out_step alnum0 enc0 dec0 halves_codes true 1018).
  destruct (@cut_short _ _ _ _ _ st (unlocked alnum0 enc0 dec0 halves_codes true) strikes p_new chance0
    (RqCreateVertex (to_vertex v3)) RqSync (RqCreateVertex (to_vertex v2)) struck (RqGet count_query) eq_refl) as (k & R & _ & E).
  exists k. split; [exact R|]. split.
  - rewrite E. repeat match goal with |- context [fst (st ?s ?x)] =>
      match x with
      | (_, inl RqSync) => replace (fst (st s x)) with (Some (SOk RsEmpty)) by (vm_compute; reflexivity)
      | (_, inr _) => replace (fst (st s x)) with (@None (srv response)) by (vm_compute; reflexivity)
      | (_, inl (RqGet _)) => replace (fst (st s x)) with (Some (SOk (RsStream [SOk (to_out enc0 (Count 1))]))) by (vm_compute; reflexivity)
      | (_, inl (RqCreateVertex _)) => replace (fst (st s x)) with (Some (SOk (RsCreated true))) by (vm_compute; reflexivity)
      end end. reflexivity.
  - apply fit_b_ok. vm_compute. reflexivity.
Qed.
