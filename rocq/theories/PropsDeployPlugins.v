(** * C50: deployed servers whose plugins call [sync]. *)
From Verif Require Import Base OMap Json Types Util Db Mem Spec QueryFacts MemFacts MemHist PropsMem PropsMemIndex Examples
  MsgPack Image MemSame Persist PropsPersist PropsRdbIndex Proto ProtoFacts Server PropsProto PluginProg PropsServer Deploy DeployPlugins PropsDeploy.

Set Implicit Arguments.
Local Open Scope list_scope.
Local Notation bytes := (list byte).

Section SyncingPlugins.
  Variable alnum : N -> bool.
  Variable enc : json -> bytes.
  Variable dec : bytes -> option json.
  Variable codes : list (bytes * code).
  Variable dbg : bool.
  Variable d : nat.
  Notation lim := (d + 6)%nat.
  Notation q_trace := (q_trace alnum enc dec codes dbg lim).
  Notation q_step := (q_step alnum enc dec codes dbg lim).
  Notation qresponses := (qresponses alnum enc dec codes dbg).
  Notation library := (library alnum enc dec codes dbg lim).
  Notation calls_made := (calls_made alnum dec codes dbg).
  Notation p_trace := (p_trace lim dbg).

  (** The requests of an event. *)
  Definition asks (e : qevent) : list (asked penv) := match e with QAsk a => [a] | QRestart => [] | QKilled a _ _ => [a] end.

  Lemma mirrors_new : mirrors p_new p_new.
  Proof. split; [reflexivity|now left]. Qed.
  Lemma library_issues evs : forall s ord o f, In (PCall ord o f) (library s evs) ->
    exists e a, In e evs /\ In a (asks e) /\ issues alnum dec codes a o.
  Proof.
    induction evs as [|e evs IH]; intros s ord o f Hin; [destruct Hin|]. cbn [DeployPlugins.library] in Hin. apply in_app_or in Hin as [Hin|Hin].
    - assert (forall st k a l, In (PCall ord o f) (map pcall l) -> (forall x, In x l -> In x (calls_made st k a)) -> issues alnum dec codes a o) as B.
      { intros st k a l Hl Sub. apply in_map_iff in Hl as (x & E & Hx). unfold pcall in E. inversion E; subst. eapply made_issues; eauto. }
      exists e. destruct e as [a| |a j k]; cbn [library1] in Hin.
      + exists a. destruct (p_up s) as [st|]; [|destruct Hin]. conj; [now left|now left|]. eapply B; eauto.
      + destruct Hin as [Hin|[]]; discriminate.
      + exists a. destruct (p_up s) as [st|]; [|destruct Hin as [Hin|[]]; discriminate].
        apply in_app_or in Hin as [Hin|[Hin|[]]].
        * conj; [now left|now left|]. eapply B; [exact Hin|]. intros x Hx. rewrite <- (firstn_skipn j). apply in_or_app. left. exact Hx.
        * destruct (nth_error (calls_made st (p_disk s) a) j) as [[[e o'] x]|]; [destruct o'|]; discriminate.
    - destruct (IH _ _ _ _ Hin) as (e' & a & H1 & H2 & H3). exists e', a. conj; auto. now right.
  Qed.
  Lemma survives_In evs saved live : survives evs saved live -> forall x, In x live \/ (exists l, saved = Some l /\ In x l) ->
    exists f r, In (PCall (fst x) (snd x) f, r) evs.
  Proof.
    assert (forall (x : order * op) (evs : list (pevent * option (outcome res))) e, (exists f r, In (PCall (fst x) (snd x) f, r) evs) -> exists f r, In (PCall (fst x) (snd x) f, r) (evs ++ [e])) as G.
    { intros x l e (f & r & Hx). exists f, r. apply in_or_app. now left. }
    induction 1 as [|evs saved live ord f y S IH|evs saved live ord f r S IH N|evs saved live ord o f r S IH N|evs saved live S IH|evs saved live f k S IH|evs saved live f k S IH];
      intros x Hx.
    - destruct Hx as [[]|(l & X & _)]; discriminate.
    - apply G. apply IH. destruct Hx as [Hx|(l & X & Hx)]; [now left|]. inversion X; subst. now left.
    - apply G. now apply IH.
    - destruct Hx as [Hx|Hx]; [|apply G, IH; now right]. apply in_app_or in Hx as [Hx|[<-|[]]]; [apply G, IH; now left|].
      exists f, (Some r). apply in_or_app. right. now left.
    - apply G. apply IH. right. destruct Hx as [Hx|Hx]; [|exact Hx]. destruct saved as [l|]; [eauto|destruct Hx].
    - apply G. apply IH. right. destruct Hx as [Hx|Hx]; [|exact Hx]. destruct saved as [l|]; [eauto|destruct Hx].
    - apply G. apply IH. left. destruct Hx as [Hx|(l & X & Hx)]; [exact Hx|]. now inversion X.
  Qed.

  (** An in-memory server with a path and any plugins, through any requests,
      restarts and kills at any moment: a server is running, and unless a panic
      has poisoned its database it responds to whatever it is asked next as one
      whose database has had just the calls [live].  These are calls made for the
      requests, and [survives] (C24) says which: those since the last start and
      before it those made before the last [sync], whoever called it. *)
  Theorem C50_memory_syncing_plugins_partial evs rs s :
    syncs_fit d lim dbg (library p_new evs) -> q_trace p_new evs = (rs, s) ->
    exists saved live st, survives (combine (library p_new evs) (fst (p_trace p_new (library p_new evs)))) saved live /\
      (forall x, In x live -> exists e a, In e evs /\ In a (asks e) /\ issues alnum dec codes a (snd x)) /\
      p_up s = Some st /\
      (st = None \/ forall later k, qresponses (st, p_disk s) later = qresponses (mem_run dbg live, k) later).
  Proof.
    intros F E. pose proof (@trace_mirrors alnum enc dec codes dbg lim evs p_new p_new mirrors_new) as M. rewrite E in M. cbn [snd] in M.
    destruct (p_trace p_new (library p_new evs)) as [rs' t] eqn:P. cbn [fst snd] in *.
    destruct (@sessions d dbg (library p_new evs) rs' t F P) as (saved & live & SV & _ & st & U & T).
    destruct M as [Dk Up]. rewrite U in Up.
    exists saved, live. destruct Up as [Up|[Up _]].
    - exists st. conj; auto.
      + intros x Hx. destruct (@survives_In _ _ _ SV x (or_introl Hx)) as (f & r & Hin). apply in_combine_l in Hin. eapply library_issues; eauto.
      + right. intros later k. symmetry. now apply qresponses_twins.
    - exists None. conj; auto.
      intros x Hx. destruct (@survives_In _ _ _ SV x (or_introl Hx)) as (f & r & Hin). apply in_combine_l in Hin. eapply library_issues; eauto.
  Qed.

  (** ** After an acknowledged [sync] *)

  (** The calls made for a list of requests, in the order they are made. *)
  Fixpoint asks_made (s : pstate) (l : list (asked penv)) : list (penv * op) :=
    match l with
    | [] => []
    | a :: l' => map fst (match p_up s with None => [] | Some st => calls_made st (p_disk s) a end) ++ asks_made (snd (q_step s (QAsk a))) l'
    end.
  (** The calls begun when the process stops. *)
  Definition begun (s : pstate) (e : qevent) : list (penv * op) :=
    match e, p_up s with
    | QKilled a j _, Some st => map fst (firstn (S j) (calls_made st (p_disk s) a))
    | _, _ => []
    end.
  Definition stops (e : qevent) : Prop := match e with QAsk _ => False | _ => True end.
  (** The effect of calls. *)
  Definition replayed (m : mem_db) (cs : list (penv * op)) : mem_db :=
    fold_left (fun st x => snd (mem_step dbg st (fst (fst x), snd x))) cs m.

  Definition pc (x : penv * op) : pevent := PCall (fst (fst x)) (snd x) (snd (fst x)).
  Lemma pcall_pc l : map pcall l = map pc (map fst l).
  Proof. rewrite map_map. apply map_ext. intros [[e o] s]. reflexivity. Qed.
  Lemma library_asks l : forall s, library s (map (@QAsk) l) = map pc (asks_made s l).
  Proof.
    induction l as [|a l IH]; intros s; [reflexivity|]. cbn [map DeployPlugins.library asks_made]. rewrite map_app, IH. f_equal.
    cbn [library1]. destruct (p_up s); [apply pcall_pc|reflexivity].
  Qed.
  Lemma library_app l1 l2 : forall s, library s (l1 ++ l2) = library s l1 ++ library (snd (q_trace s l1)) l2.
  Proof.
    induction l1 as [|e l1 IH]; intros s; [reflexivity|]. cbn [app DeployPlugins.library DeployPlugins.q_trace]. rewrite IH, <- app_assoc. do 2 f_equal.
    destruct (q_step s e) as [r s1]. cbn [snd]. destruct (q_trace s1 l1). reflexivity.
  Qed.

  Definition fit_from (t : pstate) (evs : list pevent) : Prop :=
    forall evs1 e evs2 m, evs = evs1 ++ e :: evs2 -> p_up (snd (p_trace t evs1)) = Some (Some m) ->
      match e with PCall _ OSync f | PCrash f _ => fits d m /\ flushed f m | _ => True end.
  Lemma fit_app t l1 l2 : fit_from t (l1 ++ l2) -> fit_from t l1 /\ fit_from (snd (p_trace t l1)) l2.
  Proof.
    intros F. split; intros e1 e e2 m X U.
    - apply (F e1 e (e2 ++ l2) m); [rewrite X, <- app_assoc; reflexivity|exact U].
    - apply (F (l1 ++ e1) e e2 m); [rewrite X, <- app_assoc; reflexivity|]. rewrite p_trace_app_snd. exact U.
  Qed.

  Lemma replayed_app m a b : replayed m (a ++ b) = replayed (replayed m a) b.
  Proof. apply fold_left_app. Qed.
  Lemma replayed_twins cs : forall a b, twin_db a b -> twin_db (replayed a cs) (replayed b cs).
  Proof.
    induction cs as [|x cs IH]; intros a b T; [exact T|]. cbn [replayed fold_left]. apply IH.
    exact (proj2 (step_twins dbg a b (fst (fst x), snd x) T)).
  Qed.
  Lemma sync_replay a x : snd x = OSync -> replayed a [x] = a.
  Proof. intros E. cbn [replayed fold_left]. rewrite E. destruct a; reflexivity. Qed.

  (** The file holds a database with the contents of [w]. *)
  Definition on_file (w : mem_db) (k : disk) : Prop :=
    exists m m' b, w = Some m /\ twin m m' /\ fits d m' /\ image m' b /\ d_path k = Some b.
  Lemma on_file_opens w k : on_file w k -> exists m, p_open lim k = Some (Some m) /\ twin_db w (Some m).
  Proof.
    intros (m & m' & b & -> & T & F & I & P). unfold p_open. rewrite P.
    destruct (read_image_of [] (twin_cok T) F I) as (m2 & E & Sm & C). rewrite app_nil_r in E. rewrite E.
    exists m2. split; [reflexivity|]. cbn. eapply twin_trans; eauto.
  Qed.
  Lemma on_file_path w k k' : d_path k' = d_path k -> on_file w k -> on_file w k'.
  Proof. unfold on_file. intros ->. auto. Qed.

  (** [w1]: the database at the acknowledged [sync]; [cs]: the calls since then. *)
  Definition ends_in_sync (cs : list (penv * op)) : Prop := cs = [] \/ exists cs0 x, cs = cs0 ++ [x] /\ snd x = OSync.
  Definition at_sync (w1 : mem_db) (cs : list (penv * op)) (t : pstate) : Prop :=
    (exists cs1 cs2, cs = cs1 ++ cs2 /\ ends_in_sync cs1 /\ on_file (replayed w1 cs1) (p_disk t)) /\
    exists st, p_up t = Some st /\ twin_db (replayed w1 cs) st.

  Lemma at_sync_call w1 cs t x : at_sync w1 cs t -> fit_from t [pc x] -> at_sync w1 (cs ++ [x]) (snd (p_trace t [pc x])).
  Proof.
    intros [(cs1 & cs2 & -> & En & Fi) (st & U & T)] F.
    assert (snd (p_trace t [pc x]) = snd (p_step lim dbg t (pc x))) as -> by (cbn [Persist.p_trace]; destruct (p_step lim dbg t (pc x)); reflexivity).
    unfold pc in *. cbn [p_step]. rewrite U. destruct x as [[ord f] o]. cbn [fst snd] in *.
    assert (o = OSync \/ o <> OSync) as [->|No] by (destruct o; ((left; reflexivity) || (right; discriminate))).
    - destruct st as [m|].
      + assert (fits d m /\ flushed f m) as [Fm Fl] by (apply (F [] (PCall ord OSync f) [] m); [reflexivity|exact U]). cbn [snd].
        assert (twin_db (replayed w1 ((cs1 ++ cs2) ++ [(ord, f, OSync)])) (Some m)) as T' by (rewrite replayed_app, sync_replay by reflexivity; exact T).
        split; [|exists (Some m); auto]. cbn [p_disk].
        destruct (fst (sync_disks f m (p_disk t))) as [[]|er|] eqn:R.
        * exists ((cs1 ++ cs2) ++ [(ord, f, OSync)]), []. rewrite app_nil_r. conj; [reflexivity|right; do 2 eexists; split; reflexivity|].
          rewrite (sync_disks_end _ _ _ R), flushed_all by assumption. cbn [twin_db] in T'.
          destruct (replayed w1 ((cs1 ++ cs2) ++ [(ord, f, OSync)])) as [m0|]; [|contradiction].
          exists m0, m, (fe_bytes f m). conj; auto. apply fe_bytes_ok.
        * exists cs1, (cs2 ++ [(ord, f, OSync)]). conj; [now rewrite app_assoc|exact En|].
          eapply on_file_path; [|exact Fi]. apply sync_end_bad. congruence.
        * exists cs1, (cs2 ++ [(ord, f, OSync)]). conj; [now rewrite app_assoc|exact En|].
          eapply on_file_path; [|exact Fi]. apply sync_end_bad. congruence.
      + cbn [mem_step snd]. split.
        * exists cs1, (cs2 ++ [(ord, f, OSync)]). conj; [now rewrite app_assoc|exact En|exact Fi].
        * exists None. split; [reflexivity|]. rewrite replayed_app, sync_replay by reflexivity. exact T.
    - pose proof (step_twins dbg (replayed w1 (cs1 ++ cs2)) st (ord, o) T) as [_ T'].
      assert (snd (match o, st with
                   | OSync, Some m => (Some (omapo (fun _ => RUnit) (fst (sync_disks f m (p_disk t)))), PState (Some st) (sync_end f m (p_disk t)))
                   | _, _ => let (r, st') := mem_step dbg st (ord, o) in (Some r, PState (Some st') (p_disk t)) end)
              = PState (Some (snd (mem_step dbg st (ord, o)))) (p_disk t)) as ->.
      { destruct (mem_step dbg st (ord, o)). destruct o; try reflexivity. now elim No. }
      split.
      + exists cs1, (cs2 ++ [(ord, f, o)]). conj; [now rewrite app_assoc|exact En|exact Fi].
      + eexists. split; [reflexivity|]. rewrite replayed_app. exact T'.
  Qed.
  Lemma at_sync_calls w1 l : forall cs t, at_sync w1 cs t -> fit_from t (map pc l) -> at_sync w1 (cs ++ l) (snd (p_trace t (map pc l))).
  Proof.
    induction l as [|x l IH]; intros cs t A F; [rewrite app_nil_r; exact A|].
    change (map pc (x :: l)) with ([pc x] ++ map pc l) in *. apply fit_app in F as [F1 F2]. rewrite p_trace_app_snd.
    replace (cs ++ x :: l) with ((cs ++ [x]) ++ l) by (rewrite <- app_assoc; reflexivity). apply IH; [|exact F2]. now apply at_sync_call.
  Qed.
  Lemma at_sync_open w1 cs t k : at_sync w1 cs t -> d_path k = d_path (p_disk t) ->
    exists cs1 cs2 m, cs = cs1 ++ cs2 /\ ends_in_sync cs1 /\ p_open lim k = Some (Some m) /\ twin_db (replayed w1 cs1) (Some m).
  Proof.
    intros [(cs1 & cs2 & E & En & Fi) _] P. destruct (on_file_opens (on_file_path _ P Fi)) as (m & O & T). exists cs1, cs2, m. auto.
  Qed.
  Lemma at_sync_crash w1 cs t f k x : at_sync w1 cs t -> snd x = OSync -> fit_from t [PCrash f k] ->
    exists cs1 cs2 m, cs ++ [x] = cs1 ++ cs2 /\ ends_in_sync cs1 /\ p_up (snd (p_step lim dbg t (PCrash f k))) = Some (Some m) /\ twin_db (replayed w1 cs1) (Some m).
  Proof.
    intros A Ox F. pose proof A as [_ (st & U & T)]. cbn [p_step]. rewrite U.
    assert (forall k', d_path k' = d_path (p_disk t) -> exists cs1 cs2 m, cs ++ [x] = cs1 ++ cs2 /\ ends_in_sync cs1 /\ p_open lim k' = Some (Some m) /\ twin_db (replayed w1 cs1) (Some m)) as B.
    { intros k' P. destruct (at_sync_open k' A P) as (cs1 & cs2 & m & -> & En & O & T'). exists cs1, (cs2 ++ [x]), m. conj; auto. now rewrite app_assoc. }
    destruct st as [m|]; [|cbn [snd p_up]; now apply B]. cbn [snd p_up].
    assert (fits d m /\ flushed f m) as [Fm Fl] by (apply (F [] (PCrash f k) [] m); [reflexivity|exact U]).
    set (k1 := nth k (snd (sync_disks f m (p_disk t))) (sync_end f m (p_disk t))) in *.
    assert (In k1 (snd (sync_disks f m (p_disk t)))) as Hk.
    { destruct (nth_in_or_default k (snd (sync_disks f m (p_disk t))) (sync_end f m (p_disk t))) as [H|H]; [exact H|].
      unfold k1. rewrite H. apply sync_end_In. }
    destruct (sync_path _ _ _ _ Hk) as [Hp|[Hp _]]; [now apply B|].
    assert (on_file (replayed w1 (cs ++ [x])) k1) as Fi.
    { rewrite replayed_app, sync_replay by assumption. cbn [twin_db] in T. destruct (replayed w1 cs) as [m0|]; [|contradiction].
      exists m0, m, (fe_bytes f m). rewrite Hp, flushed_all by assumption. conj; auto. apply fe_bytes_ok. }
    destruct (on_file_opens Fi) as (m1 & O & T'). exists (cs ++ [x]), [], m1. conj; auto; [now rewrite app_nil_r|]. right. eauto.
  Qed.

  (** After a [sync] request that was acknowledged, any further requests (whose
      plugins may [sync] too) and a restart or a kill at any moment, the server
      starts again and responds as one that has had all that was there when the
      [sync] was acknowledged ([m1]) and the first of the calls made since, up to
      one of the [sync] calls among them. *)
  Theorem C50_memory_synced_by_plugins_partial la rs s1 m1 a s2 lb rs3 s3 e :
    q_trace p_new la = (rs, s1) -> p_up s1 = Some (Some m1) ->
    a_req a = RqSync -> q_step s1 (QAsk a) = (Some (SOk RsEmpty), s2) ->
    q_trace s2 (map (@QAsk) lb) = (rs3, s3) -> stops e ->
    syncs_fit d lim dbg (library p_new (la ++ QAsk a :: map (@QAsk) lb ++ [e])) ->
    exists cs1 cs2 m m4, asks_made s2 lb ++ begun s3 e = cs1 ++ cs2 /\ ends_in_sync cs1 /\
      replayed (Some m1) cs1 = Some m /\ p_up (snd (q_step s3 e)) = Some (Some m4) /\
      forall later k k', qresponses (Some m4, k) later = qresponses (Some m, k') later.
  Proof.
    intros E1 U1 Rq E2 E3 St F.
    change (fit_from p_new (library p_new (la ++ QAsk a :: map (@QAsk) lb ++ [e]))) in F.
    rewrite library_app, E1 in F. cbn [snd] in F. apply fit_app in F as [F1 F].
    pose proof (@trace_mirrors alnum enc dec codes dbg lim la p_new p_new mirrors_new) as M1. rewrite E1 in M1. cbn [snd] in M1.
    destruct (p_trace p_new (library p_new la)) as [rs1 t1] eqn:P1. cbn [snd] in *.
    destruct (@sessions d dbg (library p_new la) rs1 t1 F1 P1) as (saved & live & _ & FH & st & U & T).
    pose proof M1 as [D1 Up1]. rewrite U1, U in Up1. destruct Up1 as [Up1|[X _]]; [|discriminate]. inversion Up1; subst st. clear Up1.
    cbn [DeployPlugins.library] in F. apply fit_app in F as [F2 F].
    pose proof (@step_mirrors alnum enc dec codes dbg lim s1 t1 (QAsk a) M1) as M2. rewrite E2 in M2, F. cbn [snd] in M2, F.
    assert (library1 alnum dec codes dbg s1 (QAsk a) = [pc (a_env a, OSync)]) as L1.
    { cbn [library1]. rewrite U1. unfold DeployPlugins.calls_made. rewrite Rq. reflexivity. }
    rewrite L1 in *. set (t2 := snd (p_trace t1 [pc (a_env a, OSync)])) in *.
    (* the file after the acknowledged sync *)
    assert (at_sync (Some m1) [] t2) as A2.
    { assert (fits d m1 /\ flushed (snd (a_env a)) m1) as [Fm Fl] by (apply (F2 [] (pc (a_env a, OSync)) [] m1); [reflexivity|exact U]).
      assert (fst (sync_disks (snd (a_env a)) m1 (p_disk s1)) = Ok tt) as Ok1.
      { cbn [DeployPlugins.q_step] in E2. rewrite U1 in E2. unfold qhandle, handle in E2. rewrite Rq in E2. cbn [serve] in E2. unfold blocking, sync_step, path_step in E2. cbn [fst snd] in E2.
        destruct (fst (sync_disks (snd (a_env a)) m1 (p_disk s1))) as [[]| |]; cbn [omapo] in E2; try discriminate. reflexivity. }
      unfold t2. cbn [Persist.p_trace snd]. unfold pc. cbn [p_step fst snd]. rewrite U. cbn [p_up p_disk snd].
      rewrite D1 in Ok1. split.
      - exists [], []. conj; [reflexivity|now left|]. cbn [replayed fold_left p_disk]. rewrite (sync_disks_end _ _ _ Ok1), flushed_all by assumption.
        cbn [twin_db] in T. destruct (mem_run dbg live) as [m0|]; [|contradiction].
        exists m1, m1, (fe_bytes (snd (a_env a)) m1). conj; auto; [|apply fe_bytes_ok]. apply twin_refl. exact (twin_cok T).
      - exists (Some m1). split; [reflexivity|]. cbn. cbn [twin_db] in T. destruct (mem_run dbg live); [|contradiction]. apply twin_refl. exact (twin_cok T). }
    rewrite library_app, E3 in F. cbn [snd] in F. apply fit_app in F as [F3 F4]. rewrite library_asks in F3, F4.
    pose proof (@trace_mirrors alnum enc dec codes dbg lim (map (@QAsk) lb) s2 t2 M2) as M3. rewrite E3, library_asks in M3. cbn [snd] in M3.
    pose proof (@at_sync_calls (Some m1) (asks_made s2 lb) [] t2 A2 F3) as A3. cbn [app] in A3.
    set (t3 := snd (p_trace t2 (map pc (asks_made s2 lb)))) in *. set (cs := asks_made s2 lb) in *.
    cbn [DeployPlugins.library] in F4. rewrite app_nil_r in F4.
    pose proof (@step_mirrors alnum enc dec codes dbg lim s3 t3 e M3) as M4.
    assert (exists cs1 cs2 m, cs ++ begun s3 e = cs1 ++ cs2 /\ ends_in_sync cs1 /\
      p_up (snd (p_trace t3 (library1 alnum dec codes dbg s3 e))) = Some (Some m) /\ twin_db (replayed (Some m1) cs1) (Some m)) as (cs1 & cs2 & m4 & Ec & En & U4 & T4).
    { pose proof M3 as [D3 Up3]. pose proof A3 as [_ (st3 & U3 & T3)].
      assert (forall t cs', at_sync (Some m1) cs' t -> exists cs1 cs2 m, cs' = cs1 ++ cs2 /\ ends_in_sync cs1 /\
         p_up (snd (p_trace t [PRestart])) = Some (Some m) /\ twin_db (replayed (Some m1) cs1) (Some m)) as B.
      { intros t cs' A. destruct (at_sync_open (p_disk t) A eq_refl) as (cs1 & cs2 & m & X & Y & Z & W). exists cs1, cs2, m. conj; auto. }
      destruct e as [b| |b j k]; [destruct St|..].
      - cbn [library1 begun]. rewrite app_nil_r. now apply B.
      - destruct (p_up s3) as [st|] eqn:Us; [|destruct Up3 as [Up3|[X _]]; [|discriminate]; rewrite U3 in Up3; discriminate].
        cbn [library1] in *. unfold begun. rewrite Us in *. set (made := calls_made st (p_disk s3) b) in *.
        rewrite p_trace_app_snd. rewrite pcall_pc in *. apply fit_app in F4 as [F4 F5].
        pose proof (at_sync_calls _ A3 F4) as A4. set (t4 := snd (p_trace t3 (map pc (map fst (firstn j made))))) in *.
        destruct (nth_error made j) as [[[ee o] mk]|] eqn:Nj.
        + assert (firstn (S j) made = firstn j made ++ [(ee, o, mk)]) as Ef.
          { clear - Nj. revert j Nj. induction made as [|y r IH]; intros [|j] Nj; cbn [nth_error] in Nj; try discriminate; [inversion Nj; reflexivity|].
            rewrite firstn_cons. rewrite (IH j Nj). reflexivity. }
          rewrite Ef, map_app, app_assoc. cbn [map fst].
          assert (o = OSync \/ o <> OSync) as [->|No] by (destruct o; ((left; reflexivity) || (right; discriminate))).
          * destruct (@at_sync_crash (Some m1) _ t4 (snd ee) k (ee, OSync) A4 eq_refl F5) as (cs1 & cs2 & m & X & Y & Z & W).
            exists cs1, cs2, m. conj; auto. rewrite <- Z. cbn [Persist.p_trace]. destruct (p_step lim dbg t4 (PCrash (snd ee) k)). reflexivity.
          * destruct (B t4 _ A4) as (cs1 & cs2 & m & X & Y & Z & W). exists cs1, (cs2 ++ [(ee, o)]), m. conj; auto.
            { rewrite X. now rewrite <- app_assoc. }
            destruct o; try exact Z. now elim No.
        + assert (firstn (S j) made = firstn j made) as ->.
          { apply nth_error_None in Nj. rewrite !firstn_all2; [reflexivity|lia|lia]. }
          now apply B. }
    destruct M4 as [_ Up4]. rewrite U4 in Up4.
    assert (p_up (snd (q_step s3 e)) = Some (Some m4)) as U5.
    { destruct Up4 as [Up4|[Up4 _]]; [exact Up4|]. exfalso.
      assert (forall k, p_open lim k <> Some None) as NP.
      { intros k. unfold p_open. destruct (d_path k) as [b|]; [|discriminate]. destruct (read_image lim b); discriminate. }
      destruct e as [b| |b j k]; [destruct St|..]; cbn [DeployPlugins.q_step] in Up4.
      - cbn [snd p_up] in Up4. eapply NP; eauto.
      - destruct (p_up s3); cbn [snd p_up] in Up4; eapply NP; eauto. }
    cbn [twin_db] in T4. destruct (replayed (Some m1) cs1) as [m|] eqn:Rp; [|contradiction].
    exists cs1, cs2, m, m4. conj; auto. intros later k k'. symmetry. now apply qresponses_twins.
  Qed.
End SyncingPlugins.

(** ** A plugin that creates two vertices and calls [sync] in between *)
Definition halves : code := fun _ =>
  Write (WCreateVertex v1) (fun _ => Write WSync (fun _ => Write (WCreateVertex v2) (fun _ => Done (Ok jnull)))).
Definition halves_codes : list (bytes * code) := [(ib t_likes, halves)].
Definition qask (rq : request) : asked penv := Asked (id_order, fenv_ok) u1 (fun _ => (id_order, fenv_ok)) rq.
Definition run_halves : asked penv := qask (RqExecutePlugin (ib t_likes) None).
Definition halves_trace := q_trace alnum0 enc0 dec0 halves_codes true.
Definition halves_step := q_step alnum0 enc0 dec0 halves_codes true.
Definition halves_says := qresponses alnum0 enc0 dec0 halves_codes true.
Definition counted (n : N) : list (srv response) := [SOk (RsStream [SOk (to_out enc0 (Count n))])].

(** Refuted: a plugin call's effects survive a crash all or not at all.  Killed
    before the plugin returned, the server starts again with one of the two
    vertices: neither what it had before the call nor what the call makes. *)
Theorem C50_memory_plugin_halved_refuted :
  exists m, p_up (snd (halves_trace 1024 p_new [QKilled run_halves 2 0])) = Some (Some m) /\
    halves_says (Some m, Disk None None) [qask (RqGet count_query)] = counted 1 /\
    halves_says (Some mem_empty, Disk None None) [qask (RqGet count_query)] = counted 0 /\
    halves_says (Some mem_empty, Disk None None) [run_halves; qask (RqGet count_query)] = SOk (RsPlugin (Some (to_json enc0 jnull))) :: counted 2.
Proof.
  assert (match p_up (snd (halves_trace 1024 p_new [QKilled run_halves 2 0])) with
          | Some (Some m) => halves_says (Some m, Disk None None) [qask (RqGet count_query)] = counted 1 | _ => False end) as X by (vm_compute; reflexivity).
  destruct (p_up (snd (halves_trace 1024 p_new [QKilled run_halves 2 0]))) as [[m|]|]; [|destruct X|destruct X].
  exists m. conj; [reflexivity|exact X|vm_compute; reflexivity|vm_compute; reflexivity].
Qed.

(** A check of the hypothesis about every [sync]. *)
Fixpoint fit_b (d lim : nat) (dbg : bool) (t : pstate) (evs : list pevent) : bool :=
  match evs with
  | [] => true
  | e :: evs' =>
    match e, p_up t with
    | PCall _ OSync f, Some (Some m) | PCrash f _, Some (Some m) => fitsb d m && (length (fe_bytes f m) <=? fe_early f + fe_late f)%nat
    | _, _ => true
    end && fit_b d lim dbg (snd (p_step lim dbg t e)) evs'
  end.
Lemma fit_b_ok d dbg evs : forall t, fit_b d (d + 6) dbg t evs = true -> fit_from dbg d t evs.
Proof.
  induction evs as [|e evs IH]; intros t B e1 x e2 m X U; [destruct e1; discriminate|].
  cbn [fit_b] in B. apply andb_true_iff in B as [B1 B2]. destruct e1 as [|y e1]; cbn [app] in X; inversion X; subst.
  - cbn [p_trace snd] in U. rewrite U in B1.
    assert (forall f, fitsb d m && (length (fe_bytes f m) <=? fe_early f + fe_late f)%nat = true -> fits d m /\ flushed f m) as K.
    { intros f Y. apply andb_true_iff in Y as [Y1 Y2]. split; [now apply fitsb_ok|]. now apply Nat.leb_le in Y2. }
    destruct x as [ord [] f| |f k]; auto.
  - apply (IH _ B2 e1 x e2 m eq_refl). rewrite <- U. cbn [p_trace]. destruct (p_step (d + 6) dbg t y) as [r s1]. cbn [snd].
    destruct (p_trace (d + 6) dbg s1 e1). reflexivity.
Qed.

(** A concrete case: a vertex, an acknowledged [sync], the plugin, and the
    server killed while creating a further vertex.  Two vertices are left: the
    first and the one made before the plugin's own [sync]. *)
Definition la0 : list qevent := [QAsk (qask (RqCreateVertex (to_vertex v3)))].
Definition e0 : qevent := QKilled (qask (RqCreateVertex (to_vertex v2))) 0 0.
Example C50_syncing_plugins_case : exists rs s1 m1 s2 rs3 s3 s4,
  halves_trace (1018 + 6) p_new la0 = (rs, s1) /\ p_up s1 = Some (Some m1) /\
  halves_step (1018 + 6) s1 (QAsk (qask RqSync)) = (Some (SOk RsEmpty), s2) /\
  halves_trace (1018 + 6) s2 (map (@QAsk) [run_halves]) = (rs3, s3) /\ stops e0 /\
  syncs_fit 1018 (1018 + 6) true (library alnum0 enc0 dec0 halves_codes true (1018 + 6) p_new (la0 ++ QAsk (qask RqSync) :: map (@QAsk) [run_halves] ++ [e0])) /\
  snd (halves_step (1018 + 6) s3 e0) = s4 /\
  fst (halves_step (1018 + 6) s3 (QAsk (qask (RqGet count_query)))) = Some (SOk (RsStream [SOk (to_out enc0 (Count 3))])) /\
  fst (halves_step (1018 + 6) s4 (QAsk (qask (RqGet count_query)))) = Some (SOk (RsStream [SOk (to_out enc0 (Count 2))])).
Proof.
  destruct (halves_trace (1018 + 6) p_new la0) as [rs s1] eqn:E1.
  destruct (halves_step (1018 + 6) s1 (QAsk (qask RqSync))) as [r s2] eqn:E2.
  destruct (halves_trace (1018 + 6) s2 (map (@QAsk) [run_halves])) as [rs3 s3] eqn:E3.
  assert (match p_up (snd (halves_trace (1018 + 6) p_new la0)) with Some (Some _) => true | _ => false end = true) as D by (vm_compute; reflexivity).
  rewrite E1 in D. cbn [snd] in D. destruct (p_up s1) as [[m|]|] eqn:U; try discriminate.
  assert (r = Some (SOk RsEmpty)) as ->.
  { transitivity (fst (halves_step (1018 + 6) (snd (halves_trace (1018 + 6) p_new la0)) (QAsk (qask RqSync)))); [rewrite E1; cbn [snd]; now rewrite E2|vm_compute; reflexivity]. }
  assert (s3 = snd (halves_trace (1018 + 6) (snd (halves_step (1018 + 6) (snd (halves_trace (1018 + 6) p_new la0)) (QAsk (qask RqSync)))) (map (@QAsk) [run_halves]))) as E.
  { rewrite E1. cbn [snd]. rewrite E2. cbn [snd]. now rewrite E3. }
  exists rs, s1, m, s2, rs3, s3, (snd (halves_step (1018 + 6) s3 e0)). conj; auto.
  - exact I.
  - apply fit_b_ok. vm_compute. reflexivity.
  - rewrite E. vm_compute. reflexivity.
  - rewrite E. vm_compute. reflexivity.
Qed.
