(** * C50: deployed servers and restarts. *)
From Verif Require Import Base OMap Json Types Util Db Mem Rdb Spec QueryFacts MemFacts MemHist PropsMem PropsMemIndex Examples
  KeyFacts MsgPack Image MemSame Persist PropsPersist RdbCrash RdbGraph RdbRep RdbPut RdbRefine RdbHist PropsRdb PropsRdbIndex
  Proto ProtoFacts Server PropsProto PluginProg PropsServer Deploy.

Set Implicit Arguments.
Local Open Scope list_scope.
Local Notation bytes := (list byte).

Section Memory.
  Variable alnum : N -> bool.
  Variable enc : json -> bytes.
  Variable dec : bytes -> option json.
  Variable codes : list (bytes * code).
  Variable dbg : bool.
  Variable d : nat.
  Notation lim := (d + 6)%nat.
  Notation msession := (session alnum enc dec (mem_step dbg) (mem_plugin dbg) codes (Some mem_empty)).
  Notation responses := (responses alnum enc dec codes dbg).
  Notation s_trace := (s_trace alnum enc dec codes dbg).
  Notation s_step := (s_step alnum enc dec codes dbg).

  (** An in-memory server with a path, through any requests, restarts and
      crashes: a server is running, and whatever it is asked next it responds as
      a server that only ever was asked the requests that were kept. *)
  Theorem C50_memory_deployment_partial evs rs s : syncs_ok alnum enc dec codes dbg d lim evs -> s_trace lim p_new evs = (rs, s) ->
    exists saved live st, kept (combine evs rs) saved live /\ p_up s = Some st /\
      forall later, responses st later = responses (msession live) later.
  Proof.
    intros F E. destruct (@deployed alnum enc dec codes dbg d evs rs s F E) as (saved & live & K & _ & st & U & T).
    exists saved, live, st. conj; auto. intros later. symmetry. now apply responses_twins.
  Qed.

  (** After a [sync] that was acknowledged, whatever requests follow, a restart
      brings back the server that acknowledged it: every later conversation goes
      as it would have gone there. *)
  Theorem C50_memory_synced_partial evs rs s1 a f s2 l rs3 s3 s4 st1 :
    syncs_ok alnum enc dec codes dbg d lim evs -> s_trace lim p_new evs = (rs, s1) -> p_up s1 = Some st1 ->
    (forall m, st1 = Some m -> fits d m /\ flushed f m) ->
    a_req a = RqSync -> s_step lim s1 (Ask a f) = (Some (SOk RsEmpty), s2) ->
    (forall x, In x l -> exists b g, x = Ask b g /\ a_req b <> RqSync) -> s_trace lim s2 l = (rs3, s3) ->
    snd (s_step lim s3 Restart) = s4 ->
    exists st4, p_up s4 = Some st4 /\ forall later, responses st4 later = responses st1 later.
  Proof.
    intros F E U Fe Rq E2 L E3 <-.
    destruct (@deployed alnum enc dec codes dbg d evs rs s1 F E) as (saved & live & _ & HH).
    pose proof HH as [_ (st & U' & T)]. rewrite U in U'. inversion U'; subst st. clear U'.
    assert (forall m, p_up s1 = Some (Some m) -> fits d m /\ flushed f m) as Fe' by (intros m X; apply Fe; congruence).
    destruct (@holds_sync alnum enc dec codes dbg d saved live s1 a f _ _ HH Rq Fe' E2) as [[_ H2]|(er & X & _)]; [|discriminate].
    assert (exists live3, holds alnum enc dec codes dbg d (Some live) live3 s3) as (live3 & H3).
    { clear - H2 L E3. revert rs3 s2 E3 H2. generalize live at 2. induction l as [|x l IH]; intros lv rs3 s2 E3 H2; cbn [Deploy.s_trace] in E3.
      - inversion E3; subst. eauto.
      - destruct (L x (or_introl eq_refl)) as (b & g & -> & N).
        destruct (Deploy.s_step alnum enc dec codes dbg lim s2 (Ask b g)) as [r s'] eqn:Es.
        destruct (@holds_request alnum enc dec codes dbg d _ _ _ b g _ _ H2 N Es) as [H' _].
        destruct (Deploy.s_trace alnum enc dec codes dbg lim s' l) as [rs' s''] eqn:Et. inversion E3; subst. eapply IH; eauto.
        intros y Hy. apply L. now right. }
    pose proof (@holds_restart alnum enc dec codes dbg d _ _ _ H3) as [_ (st4 & U4 & T4)]. cbn [back_to] in T4. exists st4. split; [exact U4|].
    intros later. transitivity (responses (msession live) later); [symmetry|]; now apply responses_twins.
  Qed.
End Memory.

(** ** RocksDB *)
Section Rocks.
  Variable alnum : N -> bool.
  Variable enc : json -> bytes.
  Variable dec : bytes -> option json.
  Variable codes : list (bytes * code).
  Variable H : bytes -> N.
  Notation rdb_session := (session alnum enc dec (rdb_step H enc dec) (rdb_plugin H enc dec) codes rdb_empty).
  Notation rhandle := (handle alnum enc dec (rdb_step H enc dec) (rdb_plugin H enc dec) codes).

  Inductive revent := RAsk (a : asked renv) | RCrash (k : nat).
  (** server/src/main.rs 45-63 over RdbCrash.v: a request, or a crash and a new
      start.  A [sync] request that was acknowledged makes the batches written
      before it safe; a plugin's own [sync] calls are not counted. *)
  Definition r_step (n : node) (e : revent) : outcome (option (srv response) * node) :=
    match e with
    | RAsk a =>
      let (r, s) := rhandle (n_state n) a in
      let safe := match a_req a, r with RqSync, SOk _ => length (r_log s) | _, _ => n_safe n end in
      Ok (Some r, Node (n_disk n) s safe)
    | RCrash k =>
      let d := replay (n_disk n) (firstn (Nat.max k (n_safe n)) (r_log (n_state n))) in
      let? s := rdb_open d in Ok (None, Node d s 0)
    end.
  Fixpoint r_trace (n : node) (l : list revent) : outcome (list (option (srv response)) * node) :=
    match l with
    | [] => Ok ([], n)
    | e :: l => let? rn := r_step n e in let? rsn := r_trace (snd rn) l in Ok (fst rn :: fst rsn, snd rsn)
    end.

  (** What one event does, as library calls and crashes. *)
  Definition does (e : revent) (c : list event) : Prop :=
    match e with
    | RAsk a => (forall x, In x c -> exists env o, x = Call env o /\ issues alnum dec codes a o) /\
                (a_req a = RqSync -> c = [Call (a_env a) OSync])
    | RCrash k => c = [Crash k]
    end.

  Lemma sync_state env s : snd (exec (rdb_ops H enc dec env) s OSync) = s.
  Proof. reflexivity. Qed.

  Definition nosync (x : renv * op) : bool := match snd x with OSync => false | _ => true end.
  Lemma filter_nosync h : forall s, run_from H enc dec s (filter nosync h) = run_from H enc dec s h.
  Proof.
    induction h as [|[env o] h IH]; intros s; [reflexivity|]. cbn [filter]. unfold nosync at 1. cbn [snd].
    unfold run_from in *. destruct o; cbn [fold_left]; rewrite IH; reflexivity.
  Qed.
  Lemma events_nosync h : (forall x, In x h -> nosync x = true) -> forall n,
    events H enc dec n (RdbCrash.as_calls h) = Ok (Node (n_disk n) (run_from H enc dec (n_state n) h) (n_safe n)).
  Proof.
    induction h as [|[env o] h IH]; intros N n; [destruct n; reflexivity|].
    cbn [RdbCrash.as_calls map events event_step obind fst snd]. fold (RdbCrash.as_calls h).
    rewrite IH by (intros x Hx; apply N; now right). cbn [n_disk n_state n_safe].
    assert (synced env o = false) as -> by (pose proof (N _ (or_introl eq_refl)) as X; destruct o; cbn in *; congruence). reflexivity.
  Qed.

  Lemma step_does n e : exists c, does e c /\ events H enc dec n c = omapo snd (r_step n e).
  Proof.
    destruct e as [a|k].
    2:{ exists [Crash k]. split; [reflexivity|]. cbn [events event_step r_step]. destruct (rdb_open _); reflexivity. }
    assert (a_req a = RqSync \/ a_req a <> RqSync) as [Rq|Rq] by (destruct (a_req a); ((left; reflexivity) || (right; discriminate))).
    - exists [Call (a_env a) OSync]. split.
      + split; [|reflexivity]. intros x [<-|[]]. exists (a_env a), OSync. split; [reflexivity|]. left. now rewrite Rq.
      + cbn [events event_step obind r_step]. unfold handle. rewrite Rq. cbn [serve]. unfold blocking, rdb_step. cbn [fst snd].
        pose proof (sync_result H enc dec (a_env a) (n_state n)) as R. pose proof (sync_state (a_env a) (n_state n)) as Sx.
        destruct (exec (rdb_ops H enc dec (a_env a)) (n_state n) OSync) as [r s]. cbn [fst snd] in R, Sx. subst r s. cbn [synced].
        destruct (wok (a_env a)); reflexivity.
    - assert (exists h, snd (rhandle (n_state n) a) = run_from H enc dec (n_state n) h /\ forall x, In x h -> issues alnum dec codes a (snd x)) as (h & E & I).
      { destruct (@handle_cases alnum enc dec codes _ _ (rdb_step H enc dec) (rdb_plugin H enc dec) (n_state n) a) as [X|[(o & R & X)|(name & arg & v & c & Rq' & Hc & X)]]; rewrite X.
        - exists []. split; [reflexivity|intros x []].
        - exists [(a_env a, o)]. split; [reflexivity|]. intros x [<-|[]]. now left.
        - unfold rdb_plugin. destruct (run_prog (rdb_ops H enc dec) (a_envs a) 0 (c v) (n_state n)) as [r s1] eqn:P.
          destruct (run_prog_calls _ _ _ _ _ P) as (os & E & _ & W). exists os. split; [exact E|]. intros x Hx. right. exists name, arg, v, c. auto. }
      exists (RdbCrash.as_calls (filter nosync h)). split.
      + split; [|now intros]. intros x Hx. unfold RdbCrash.as_calls in Hx. apply in_map_iff in Hx as ((env & o) & <- & Hx). apply filter_In in Hx as [Hx _]. exists env, o.
        split; [reflexivity|]. apply (I _ Hx).
      + rewrite events_nosync by (intros x Hx; now apply filter_In in Hx). rewrite filter_nosync. cbn [r_step].
        destruct (rhandle (n_state n) a) as [r s]. cbn [snd] in E. subst s. cbn [omapo snd]. destruct (a_req a); try reflexivity. now elim Rq.
  Qed.

  Lemma events_app n a b : events H enc dec n (a ++ b) = let? m := events H enc dec n a in events H enc dec m b.
  Proof.
    revert n. induction a as [|x a IH]; intros n; cbn [app events]; [reflexivity|]. destruct (event_step H enc dec n x); cbn [obind]; auto.
  Qed.

  Lemma some_chunks l : exists chunks, Forall2 does l chunks.
  Proof.
    induction l as [|e l (cs & F)]; [exists []; constructor|]. destruct (step_does fresh_node e) as (c & D & _). exists (c :: cs). now constructor.
  Qed.

  (** A RocksDB server's life is a history of library calls and crashes, each
      call made on behalf of one of the requests: everything proved about such
      histories (C18-C23) holds for deployed servers. *)
  Theorem C50_rocksdb_deployment n l : exists chunks, Forall2 does l chunks /\
    omapo snd (r_trace n l) = events H enc dec n (concat chunks).
  Proof.
    revert n. induction l as [|e l IH]; intros n; [exists []; split; [constructor|reflexivity]|].
    destruct (step_does n e) as (c & D & E). destruct (r_step n e) as [[r n1]|er|] eqn:Es; cbn [omapo snd] in E.
    - destruct (IH n1) as (chunks & F & E2). exists (c :: chunks). split; [now constructor|]. cbn [concat r_trace].
      rewrite events_app, E, Es. cbn [obind fst snd]. rewrite <- E2. destruct (r_trace n1 l); reflexivity.
    - destruct (some_chunks l) as (chunks & F).
      exists (c :: chunks). split; [now constructor|]. cbn [concat r_trace]. rewrite events_app, E, Es. reflexivity.
    - destruct (some_chunks l) as (chunks & F).
      exists (c :: chunks). split; [now constructor|]. cbn [concat r_trace]. rewrite events_app, E, Es. reflexivity.
  Qed.

  (** A crash after an acknowledged [sync] request.  [la] is anything (earlier
      crashes too), [lb] the requests after the [sync].  The server starts again,
      and its data is what it was at some moment after the [sync]: after all that
      [la] did and the first of the calls made for [lb]. *)
  Hypothesis reread : forall t v, dec t = Some v -> dec (enc v) = Some v.
  Lemma does_good l chunks : good_codes enc dec codes -> Forall2 does l chunks -> good_history enc dec (calls_of (concat chunks)).
  Proof.
    intros G F. induction F as [|e c l cs D F IH]; [constructor|]. cbn [concat]. unfold calls_of. rewrite flat_map_app. apply Forall_app. split; [|exact IH].
    apply Forall_forall. intros x Hx. apply in_flat_map in Hx as (ev & Hev & Hx). destruct e as [a|k]; cbn [does] in D.
    - destruct D as [D _]. destruct (D _ Hev) as (env & o & -> & I). destruct Hx as [<-|[]]. cbn [snd].
      destruct I as [R|(name & arg & v & p & _ & Hp & W)]; [eapply request_good; eauto|eapply G; eauto].
    - subst c. destruct Hev as [<-|[]]. destruct Hx.
  Qed.
  Lemma r_trace_app n la lb : r_trace n (la ++ lb) = let? x := r_trace n la in let? y := r_trace (snd x) lb in Ok (fst x ++ fst y, snd y).
  Proof.
    revert n. induction la as [|e la IH]; intros n; cbn [app r_trace obind fst snd]; [destruct (r_trace n lb) as [[]| |]; reflexivity|].
    destruct (r_step n e) as [x| |]; cbn [obind]; try reflexivity. rewrite IH. destruct (r_trace (snd x) la) as [y| |]; cbn [obind fst snd]; try reflexivity.
    destruct (r_trace (snd y) lb) as [z| |]; reflexivity.
  Qed.

  Theorem C50_rocksdb_synced la a lb k : good_codes enc dec codes -> a_req a = RqSync ->
    exists ca cb, Forall2 does la ca /\ Forall2 does (map RAsk lb) cb /\
      ((N.of_nat (length (concat ca) + length (concat cb)) + 1 < 2 ^ 64)%N ->
       forall rs n ns, r_trace fresh_node la = Ok (rs, n) -> r_step n (RAsk a) = Ok (Some (SOk RsEmpty), ns) ->
       exists rs2 n2 c1 c2 n1, r_trace fresh_node (la ++ RAsk a :: map RAsk lb ++ [RCrash k]) = Ok (rs2, n2) /\
         concat cb = c1 ++ c2 /\ events H enc dec fresh_node (concat ca ++ Call (a_env a) OSync :: c1) = Ok n1 /\
         r_db (n_state n2) = r_db (n_state n1) /\
         (forall m, mem m (r_indexed (n_state n2)) = true -> mem m (r_indexed (n_state n1)) = true) /\
         (forall m, mem m (r_indexed (n_state n1)) = true -> mem m (r_indexed (n_state n2)) = false ->
            exists env, In (Call env (OIndexProperty m)) (concat ca ++ c1) /\ wok env = false)).
  Proof.
    intros G Rq. set (l := la ++ RAsk a :: map RAsk lb).
    destruct (C50_rocksdb_deployment fresh_node l) as (chunks & F & E).
    apply Forall2_app_inv_l in F as (ca & cs & Fa & F & ->). inversion F as [|e c l' cb D Fb]; subst. destruct D as [_ D]. specialize (D Rq). subst c.
    exists ca, cb. conj; auto. intros Hl rs n ns Ea Es.
    assert (Forall2 does l (ca ++ [Call (a_env a) OSync] :: cb)) as Fl.
    { apply Forall2_app; [assumption|]. constructor; [|assumption]. split; [|reflexivity].
      intros x [<-|[]]. exists (a_env a), OSync. split; [reflexivity|]. left. now rewrite Rq. }
    pose proof (does_good G Fl) as Gh. rewrite concat_app in *. cbn [concat app] in *.
    destruct (@C23_rdb_crash_any H enc dec (concat ca ++ Call (a_env a) OSync :: concat cb) k Gh) as (n2 & l1 & l2 & n1 & E2 & El & E1 & Db & I1 & I2 & Ns).
    { rewrite app_length. cbn [length]. lia. }
    assert (wok (a_env a) = true) as W.
    { cbn [r_step] in Es. unfold handle in Es. rewrite Rq in Es. cbn [serve] in Es. unfold blocking, rdb_step in Es. cbn [fst snd] in Es.
      pose proof (sync_result H enc dec (a_env a) (n_state n)) as R.
      destruct (exec (rdb_ops H enc dec (a_env a)) (n_state n) OSync) as [r s]. cbn [fst] in R. subst r.
      destruct (wok (a_env a)); [reflexivity|discriminate]. }
    (* what was lost comes after the sync *)
    assert (exists c1, l1 = concat ca ++ Call (a_env a) OSync :: c1 /\ concat cb = c1 ++ l2) as (c1 & -> & Ec).
    { destruct (Nat.le_gt_cases (length l1) (length (concat ca))) as [Le|Gt].
      - exfalso. assert (In (Call (a_env a) OSync) l2) as Hin.
        { assert (l2 = skipn (length l1) (concat ca ++ Call (a_env a) OSync :: concat cb)) as ->.
          { rewrite El. now rewrite skipn_app, skipn_all, Nat.sub_diag. }
          rewrite skipn_app. apply in_or_app. right. replace (length l1 - length (concat ca)) with 0 by lia. now left. }
        destruct (Ns _ Hin) as (env & o & X & Y). inversion X; subst. specialize (Y eq_refl). congruence.
      - exists (skipn (S (length (concat ca))) l1).
        assert (l1 = (concat ca ++ [Call (a_env a) OSync]) ++ skipn (S (length (concat ca))) l1) as X.
        { rewrite <- (firstn_skipn (S (length (concat ca))) l1) at 1. f_equal.
          pose proof (f_equal (firstn (S (length (concat ca)))) El) as Y. rewrite (firstn_app _ l1 l2) in Y.
          replace (S (length (concat ca)) - length l1) with 0 in Y by lia. rewrite firstn_O, app_nil_r in Y. rewrite <- Y.
          rewrite firstn_app. replace (S (length (concat ca)) - length (concat ca)) with 1 by lia. now rewrite firstn_all2 by lia. }
        split; [rewrite X at 1; now rewrite <- app_assoc|].
        rewrite X in El. rewrite <- !app_assoc in El. apply app_inv_head in El. cbn [app] in El. now inversion El. }
    unfold events in E2. fold (events H enc dec) in E2. rewrite events_app in E2.
    assert (exists x, r_trace fresh_node (l ++ [RCrash k]) = Ok x /\ snd x = n2) as ([rs2 n2'] & Et & <-).
    { rewrite r_trace_app. destruct (r_trace fresh_node l) as [[rs0 n0]| |] eqn:E0; cbn [omapo snd] in E; rewrite <- E in E2; cbn [obind] in E2; try discriminate.
      cbn [obind snd fst r_trace r_step]. cbn [events event_step] in E2.
      destruct (rdb_open (replay (n_disk n0) (firstn (Nat.max k (n_safe n0)) (r_log (n_state n0))))) as [s| |]; cbn [obind] in *; try discriminate.
      inversion E2; subst. eexists. split; reflexivity. }
    exists rs2, n2', c1, l2, n1. unfold l in Et. rewrite <- app_assoc in Et. cbn [app] in Et. conj; auto.
    intros m M1 M2. destruct (I2 m M1 M2) as (env & Hin & Wf). exists env. split; [|assumption].
    apply in_app_or in Hin as [Hin|[X|Hin]]; [apply in_or_app; now left|discriminate|apply in_or_app; now right].
  Qed.
End Rocks.

(** ** Refuted: an acknowledged [sync] request does not make data durable

    The in-memory server, with a full disk (C24): the client's [sync] is
    acknowledged, and after a restart there is no server. *)
Definition ask (rq : request) : asked order := Asked id_order u1 (fun _ => id_order) rq.
Definition filled : list sevent := [Ask (ask (RqCreateVertex (to_vertex v1))) fenv_ok; Ask (ask RqSync) fenv_full; Restart].
Theorem C50_memory_sync_refuted enc dec codes lim :
  let t := s_trace alnum0 enc dec codes true (lim + 6) p_new filled in
  fst t = [Some (SOk (RsCreated true)); Some (SOk RsEmpty); None] /\ p_up (snd t) = None.
Proof. cbn zeta. rewrite Nat.add_comm. split; vm_compute; reflexivity. Qed.

(** ** Concrete deployments

    A vertex, a [sync], a second vertex linked to the first by a plugin, and a
    restart: the hypotheses hold, and the second vertex and the edge are gone. *)
Definition plugged (rq : request) : sevent := Ask (ask rq) fenv_ok.
Definition before : list sevent := [plugged (RqCreateVertex (to_vertex v1))].
Definition after : list sevent := [plugged (RqCreateVertex (to_vertex v2)); plugged (RqExecutePlugin (ib t_likes) None)].

Definition link_trace := s_trace alnum0 enc0 dec0 link_codes true.
Definition link_step := s_step alnum0 enc0 dec0 link_codes true.
Definition count_query : pquery := to_query enc0 (QCount QAllVertex).
Example C50_memory_case : exists rs s1 m s2 rs3 s3,
  syncs_ok alnum0 enc0 dec0 link_codes true 1018 (1018 + 6) before /\
  link_trace (1018 + 6) p_new before = (rs, s1) /\ p_up s1 = Some (Some m) /\ fits 1018 m /\ flushed fenv_ok m /\
  link_step (1018 + 6) s1 (plugged RqSync) = (Some (SOk RsEmpty), s2) /\
  (forall x, In x after -> exists b g, x = Ask b g /\ a_req b <> RqSync) /\
  link_trace (1018 + 6) s2 after = (rs3, s3) /\
  fst (link_step (1018 + 6) s3 (plugged (RqGet count_query))) = Some (SOk (RsStream [SOk (to_out enc0 (Count 2))])) /\
  fst (link_step (1018 + 6) (snd (link_step (1018 + 6) s3 Restart)) (plugged (RqGet count_query))) = Some (SOk (RsStream [SOk (to_out enc0 (Count 1))])).
Proof.
  set (dis := fun s : pstate => match p_up s with Some (Some m) => fitsb 1018 m && (length (canon_bytes m) <=? 4000)%nat | _ => false end).
  destruct (link_trace (1018 + 6) p_new before) as [rs s1] eqn:E1.
  destruct (link_step (1018 + 6) s1 (plugged RqSync)) as [r s2] eqn:E2.
  destruct (link_trace (1018 + 6) s2 after) as [rs3 s3] eqn:E3.
  assert (dis (snd (link_trace (1018 + 6) p_new before)) = true) as D by (vm_compute; reflexivity). rewrite E1 in D. cbn [snd] in D.
  unfold dis in D. destruct (p_up s1) as [[m|]|] eqn:U; try discriminate. apply andb_true_iff in D as [D1 D2].
  assert (r = Some (SOk RsEmpty)) as ->.
  { transitivity (fst (link_step (1018 + 6) (snd (link_trace (1018 + 6) p_new before)) (plugged RqSync))); [rewrite E1; cbn [snd]; now rewrite E2|vm_compute; reflexivity]. }
  assert (s3 = snd (link_trace (1018 + 6) (snd (link_step (1018 + 6) (snd (link_trace (1018 + 6) p_new before)) (plugged RqSync))) after)) as E.
  { rewrite E1. cbn [snd]. rewrite E2. cbn [snd]. now rewrite E3. }
  exists rs, s1, m, s2, rs3, s3. conj; auto.
  - intros evs1 e evs2 m' X. destruct evs1 as [|x [|y r]]; [|destruct evs2; discriminate|destruct r; discriminate].
    inversion X; subst. intros _ Rq. discriminate.
  - now apply fitsb_ok.
  - apply Nat.leb_le in D2. exact D2.
  - intros x [<-|[<-|[]]]; (do 2 eexists; split; [reflexivity|discriminate]).
  - rewrite E. vm_compute. reflexivity.
  - rewrite E. vm_compute. reflexivity.
Qed.

(** A RocksDB server: a vertex, a [sync], then two more vertices of which the
    last had not reached the disk when the machine died. *)
Lemma dec0_reread t v : dec0 t = Some v -> dec0 (enc0 v) = Some v.
Proof. destruct t as [|[] [|]]; cbn; intros E; inversion E; reflexivity. Qed.
Definition rask (rq : request) : asked renv := Asked ok_env u1 (fun _ => ok_env) rq.
Definition rocks_trace := r_trace alnum0 enc0 dec0 link_codes hash0.
Definition rocks_step := r_step alnum0 enc0 dec0 link_codes hash0.
Example C50_rocksdb_case :
  let la := [RAsk (rask (RqCreateVertex (to_vertex v1)))] in
  let lb := [rask (RqCreateVertex (to_vertex v2)); rask (RqExecutePlugin (ib t_likes) None)] in
  good_codes enc0 dec0 link_codes /\ (forall t v, dec0 t = Some v -> dec0 (enc0 v) = Some v) /\
  (exists rs n ns, rocks_trace fresh_node la = Ok (rs, n) /\ rocks_step n (RAsk (rask RqSync)) = Ok (Some (SOk RsEmpty), ns)) /\
  (let? x := rocks_trace fresh_node (la ++ RAsk (rask RqSync) :: map RAsk lb ++ [RCrash 2; RAsk (rask (RqGet count_query))]) in
   Ok (last (fst x) None)) = Ok (Some (SOk (RsStream [SOk (to_out enc0 (Count 2))]))) /\
  (let? x := rocks_trace fresh_node (la ++ RAsk (rask RqSync) :: map RAsk lb ++ [RCrash 0; RAsk (rask (RqGet count_query))]) in
   Ok (last (fst x) None)) = Ok (Some (SOk (RsStream [SOk (to_out enc0 (Count 1))]))).
Proof.
  cbn zeta. split; [apply C48_case|]. split; [apply dec0_reread|]. split.
  - do 3 eexists. split; [reflexivity|]. reflexivity.
  - split; vm_compute; reflexivity.
Qed.
