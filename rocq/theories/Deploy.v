(** * Deployed servers: server/src/main.rs, restarts and crashes.

    A server process over an in-memory database with a path ([indradb-server
    memory PATH]): requests, restarts, and being killed in the middle of a
    [sync].  Composes Persist.v (what [sync] does to the file), Server.v and
    PluginProg.v (what a request does). *)
From Verif Require Import Base OMap Json Types Util Db Spec Mem MemFacts MemHist MsgPack Image MemSame Persist Proto Server PluginProg.

Set Implicit Arguments.
Local Open Scope list_scope.
Local Notation bytes := (list byte).

(** ** Requests to two databases with the same contents get the same responses *)

Lemma read_twins dbg ord a b {B} (c : rcall B) : twin a b -> read_call (mem_ops dbg ord) a c = read_call (mem_ops dbg ord) b c.
Proof.
  intros T. pose proof T as [Sm _]. destruct Sm as [S1 S2 S3 S4 S5 _]. pose proof (@vertex_ids_twin ord a b) as V1.
  pose proof (@vertex_value_twin ord a b) as V2. pose proof (@edge_ids_twin ord a b) as V3. pose proof (@edge_value_twin ord a b) as V4.
  destruct c; cbn [read_call mem_ops t_vertex_count t_all_vertices t_range_vertices t_specific_vertices t_vertex_ids_with_property
    t_vertex_ids_with_property_value t_edge_count t_all_edges t_range_edges t_range_reversed_edges t_specific_edges t_edges_with_property
    t_edges_with_property_value t_vertex_property t_all_vertex_properties t_edge_property t_all_edge_properties]; auto;
    unfold mem_vertex_count, mem_all_vertices, mem_range_vertices, mem_specific_vertices, mem_edge_count, mem_all_edges, mem_range_edges,
      mem_range_reversed_edges, mem_specific_edges, mem_vertex_property, mem_all_vertex_properties, mem_edge_property, mem_all_edge_properties;
    rewrite <- ?S1, <- ?S2, <- ?S3, <- ?S4, <- ?S5; reflexivity.
Qed.
Lemma write_twins dbg ord a b {B} (c : wcall B) : twin a b -> twins (write_call (mem_ops dbg ord) a c) (write_call (mem_ops dbg ord) b c).
Proof.
  intros T. destruct c; cbn [write_call mem_ops t_delete_vertices t_delete_edges t_delete_vertex_properties t_delete_edge_properties t_sync
    t_create_vertex t_create_edge t_bulk_insert t_index_property t_set_vertex_properties t_set_edge_properties].
  - now apply delete_vertices_twins.
  - now apply delete_edges_twins.
  - now apply delete_vprops_twins.
  - now apply delete_eprops_twins.
  - split; auto.
  - now apply create_vertex_twins.
  - now apply create_edge_twins.
  - now apply bulk_twins.
  - now apply index_twins.
  - now apply set_vprops_twins.
  - now apply set_eprops_twins.
Qed.
Lemma run_twins dbg envs {A} (p : prog A) : forall i a b, twin a b ->
  twins (run_prog (mem_ops dbg) envs i p a) (run_prog (mem_ops dbg) envs i p b).
Proof.
  induction p as [r|B c k IH|B c k IH]; intros i a b T; cbn [run_prog]; [split; auto|..].
  - rewrite (read_twins dbg (envs i) c T). destruct (read_call (mem_ops dbg (envs i)) b c); auto. split; auto.
  - destruct (write_twins dbg (envs i) c T) as [E T']. destruct (write_call (mem_ops dbg (envs i)) a c) as [r a'], (write_call (mem_ops dbg (envs i)) b c) as [r' b'].
    cbn [fst snd] in E, T'. subst r'. destruct r; auto. split; auto.
Qed.

Section Deploy.
  Variable alnum : N -> bool.
  Variable enc : json -> bytes.
  Variable dec : bytes -> option json.
  Variable codes : list (bytes * code).
  Variable dbg : bool.

  Notation mhandle := (handle alnum enc dec (mem_step dbg) (mem_plugin dbg) codes).
  Notation msession := (session alnum enc dec (mem_step dbg) (mem_plugin dbg) codes (Some mem_empty)).

  Lemma plugin_twins envs c a b arg : twin_db a b ->
    fst (mem_plugin dbg envs c a arg) = fst (mem_plugin dbg envs c b arg) /\ twin_db (snd (mem_plugin dbg envs c a arg)) (snd (mem_plugin dbg envs c b arg)).
  Proof.
    destruct a as [a|], b as [b|]; cbn [twin_db]; intros T; try contradiction; [|split; reflexivity]. unfold mem_plugin.
    destruct (run_twins dbg envs (c arg) 0 T) as [E T'].
    destruct (run_prog (mem_ops dbg) envs 0 (c arg) a) as [r a'], (run_prog (mem_ops dbg) envs 0 (c arg) b) as [r' b'].
    cbn [fst snd] in *. subst r'. destruct r; cbn; auto.
  Qed.

  Lemma handle_twins a b rq : twin_db a b -> fst (mhandle a rq) = fst (mhandle b rq) /\ twin_db (snd (mhandle a rq)) (snd (mhandle b rq)).
  Proof.
    intros T. unfold handle. destruct rq as [env fresh envs rq]. cbn [a_env a_fresh a_envs a_req].
    assert (forall o k, fst (blocking (mem_step dbg) a env o k) = fst (blocking (mem_step dbg) b env o k) /\
                        twin_db (snd (blocking (mem_step dbg) a env o k)) (snd (blocking (mem_step dbg) b env o k))) as B.
    { intros o k. unfold blocking. destruct (step_twins dbg a b (env, o) T) as [E T'].
      destruct (mem_step dbg a (env, o)) as [r a'], (mem_step dbg b (env, o)) as [r' b']. cbn [fst snd] in *. subst r'. destruct r; auto. }
    destruct rq; cbn [serve]; auto.
    - destruct (of_vertex alnum v); cbn [converted]; auto.
    - destruct (of_ident alnum t); cbn [converted]; auto.
    - destruct (of_edge alnum e); cbn [converted]; auto.
    - destruct (of_query alnum dec q) as [q'|]; cbn [converted]; auto. destruct (step_twins dbg a b (env, OGet q') T) as [E T'].
      destruct (mem_step dbg a (env, OGet q')) as [r a'], (mem_step dbg b (env, OGet q')) as [r' b']. cbn [fst snd] in *. subst r'. auto.
    - destruct (of_query alnum dec q); cbn [converted]; auto.
    - destruct (of_set_req alnum dec r) as [[[q n] v]|]; cbn [converted]; auto.
    - destruct (read_stream alnum dec items); auto.
    - destruct (of_index_req alnum r); cbn [converted]; auto.
    - destruct (match arg with Some a => of_json dec a | None => COk jnull end) as [v|]; cbn [converted]; auto.
      unfold hosted. induction codes as [|[n c] r IH]; cbn [map find_plugin fst snd]; auto.
      destruct (list_eq_dec Byte.byte_eq_dec name n); [|exact IH].
      destruct (plugin_twins envs c a b v T) as [E T'].
      destruct (mem_plugin dbg envs c a v) as [x a'], (mem_plugin dbg envs c b v) as [x' b']. cbn [fst snd] in *. subst x'. destruct x; auto.
  Qed.

  (** The responses to a list of requests. *)
  Fixpoint responses (st : mem_db) (l : list (asked order)) : list (srv response) :=
    match l with [] => [] | a :: l => let (r, st') := mhandle st a in r :: responses st' l end.
  Lemma responses_twins l : forall a b, twin_db a b -> responses a l = responses b l.
  Proof.
    induction l as [|x l IH]; intros a b T; cbn [responses]; [reflexivity|]. destruct (handle_twins a b x T) as [E T'].
    destruct (mhandle a x) as [r a'], (mhandle b x) as [r' b']. cbn [fst snd] in *. subst r'. f_equal. auto.
  Qed.

  (** ** A server process with a path

      memory/datastore.rs 291-303: [sync] writes the file; everything else is as
      without a path. *)
  Definition path_step (f : fenv) (s : mem_db * disk) (x : order * op) : outcome res * (mem_db * disk) :=
    match snd x, fst s with
    | OSync, Some m => (omapo (fun _ => RUnit) (fst (sync_disks f m (snd s))), (Some m, sync_end f m (snd s)))
    | _, _ => let (r, st) := mem_step dbg (fst s) x in (r, (st, snd s))
    end.
  (** Plugins that do not call [sync] themselves (for those that do: DeployPlugins.v). *)
  Definition path_plugin (envs : nat -> order) (c : code) : plugin (mem_db * disk) :=
    fun s arg => let (r, st) := mem_plugin dbg envs c (fst s) arg in (r, (st, snd s)).

  Inductive sevent :=
  | Ask (a : asked order) (f : fenv)   (* a request; [f] is used by [sync] *)
  | Restart                             (* the process stops (or is killed) and is started again *)
  | Killed (f : fenv) (k : nat).        (* killed in the middle of a [sync], then started again *)

  (** server/src/main.rs 64-71 and [p_open].  No response when no process runs
      (it could not read the file and exited). *)
  Definition s_step (lim : nat) (s : pstate) (e : sevent) : option (srv response) * pstate :=
    match e with
    | Ask a f =>
      match p_up s with
      | None => (None, s)
      | Some st =>
        let (r, s') := handle alnum enc dec (path_step f) path_plugin codes (st, p_disk s) a in
        (Some r, PState (Some (fst s')) (snd s'))
      end
    | Restart => (None, PState (p_open lim (p_disk s)) (p_disk s))
    | Killed f k =>
      match p_up s with
      | Some (Some m) =>
        let d := nth k (snd (sync_disks f m (p_disk s))) (sync_end f m (p_disk s)) in
        (None, PState (p_open lim d) d)
      | _ => (None, PState (p_open lim (p_disk s)) (p_disk s))
      end
    end.
  Fixpoint s_trace (lim : nat) (s : pstate) (evs : list sevent) : list (option (srv response)) * pstate :=
    match evs with
    | [] => ([], s)
    | e :: evs' => let (r, s') := s_step lim s e in
                   let (rs, s'') := s_trace lim s' evs' in (r :: rs, s'')
    end.

  (** ** Specification: which requests' effects the database has

      [kept evs saved live]: after the events, with the responses clients got,
      the server answers as after the requests [live]; [saved] are the requests
      whose effects are in the file, those before the last acknowledged [sync]. *)
  Notation requests := (list (asked order)).
  Definition back_to (saved : option requests) : requests := match saved with Some l => l | None => [] end.
  Inductive kept : list (sevent * option (srv response)) -> option requests -> requests -> Prop :=
  | kp_nil : kept [] None []
  | kp_sync evs saved live a f : kept evs saved live -> a_req a = RqSync ->
      kept (evs ++ [(Ask a f, Some (SOk RsEmpty))]) (Some live) live
  | kp_sync_failed evs saved live a f e : kept evs saved live -> a_req a = RqSync ->
      kept (evs ++ [(Ask a f, Some (SErr e))]) saved live
  | kp_request evs saved live a f r : kept evs saved live -> a_req a <> RqSync ->
      kept (evs ++ [(Ask a f, Some r)]) saved (live ++ [a])
  | kp_restart evs saved live : kept evs saved live ->
      kept (evs ++ [(Restart, None)]) saved (back_to saved)
  | kp_killed_before evs saved live f k : kept evs saved live ->
      kept (evs ++ [(Killed f k, None)]) saved (back_to saved)
  | kp_killed_after evs saved live f k : kept evs saved live ->
      kept (evs ++ [(Killed f k, None)]) (Some live) live.

  (** Every [sync] finds a database within the format's limits, and what is left
      in the buffer when the writer is dropped gets written (C24). *)
  Definition syncs_ok (d lim : nat) (evs : list sevent) : Prop :=
    forall evs1 e evs2 m, evs = evs1 ++ e :: evs2 -> p_up (snd (s_trace lim p_new evs1)) = Some (Some m) ->
      match e with
      | Ask a f => a_req a = RqSync -> fits d m /\ flushed f m
      | Killed f _ => fits d m /\ flushed f m
      | Restart => True
      end.

  (** ** Proof *)

  Lemma not_sync a f st k : a_req a <> RqSync ->
    handle alnum enc dec (path_step f) path_plugin codes (st, k) a = let (r, st') := mhandle st a in (r, (st', k)).
  Proof.
    intros N. unfold handle. destruct a as [env fresh envs rq]. cbn [a_env a_fresh a_envs a_req] in *.
    assert (forall o g, o <> OSync -> blocking (path_step f) (st, k) env o g = let (r, st') := blocking (mem_step dbg) st env o g in (r, (st', k))) as B.
    { intros o g No. unfold blocking. assert (path_step f (st, k) (env, o) = let (r, st') := mem_step dbg st (env, o) in (r, (st', k))) as ->.
      { unfold path_step. cbn [fst snd]. destruct o; try reflexivity. now elim No. }
      destruct (mem_step dbg st (env, o)) as [[] st']; reflexivity. }
    destruct rq; cbn [serve]; try reflexivity.
    - now elim N.
    - destruct (of_vertex alnum v); cbn [converted]; [|reflexivity]. now apply B.
    - destruct (of_ident alnum t); cbn [converted]; [|reflexivity]. now apply B.
    - destruct (of_edge alnum e); cbn [converted]; [|reflexivity]. now apply B.
    - destruct (of_query alnum dec q) as [q'|]; cbn [converted]; [|reflexivity]. unfold path_step. cbn [fst snd].
      destruct (mem_step dbg st (env, OGet q')). reflexivity.
    - destruct (of_query alnum dec q); cbn [converted]; [|reflexivity]. now apply B.
    - destruct (of_set_req alnum dec r) as [[[q n] v]|]; cbn [converted]; [|reflexivity]. now apply B.
    - destruct (read_stream alnum dec items); [|reflexivity]. now apply B.
    - destruct (of_index_req alnum r); cbn [converted]; [|reflexivity]. now apply B.
    - destruct (match arg with Some a => of_json dec a | None => COk jnull end) as [v|]; cbn [converted]; [|reflexivity].
      unfold hosted. induction codes as [|[n c] r IH]; cbn [map find_plugin fst snd]; [reflexivity|].
      destruct (list_eq_dec Byte.byte_eq_dec name n); [|exact IH].
      unfold path_plugin. cbn [fst snd]. destruct (mem_plugin dbg envs c st v) as [[] st']; reflexivity.
  Qed.

  Variable d : nat.
  Notation lim := (d + 6)%nat.

  Definition saved_in (saved : option requests) (k : disk) : Prop :=
    match saved with
    | None => d_path k = None
    | Some l => exists m m' b, msession l = Some m /\ twin m m' /\ fits d m' /\ image m' b /\ d_path k = Some b
    end.
  Definition holds (saved : option requests) (live : requests) (s : pstate) : Prop :=
    saved_in saved (p_disk s) /\ exists st, p_up s = Some st /\ twin_db (msession live) st.

  Lemma saved_opens saved k : saved_in saved k ->
    exists m, p_open lim k = Some (Some m) /\ exists m0, msession (back_to saved) = Some m0 /\ twin m0 m.
  Proof.
    unfold saved_in, p_open. destruct saved as [l|]; cbn [back_to].
    - intros (m & m' & b & R & T & F & I & ->).
      destruct (read_image_of [] (twin_cok T) F I) as (m2 & E & Sm & C). rewrite app_nil_r in E. rewrite E.
      exists m2. split; [reflexivity|]. exists m. split; [assumption|]. eapply twin_trans; eauto.
    - intros ->. exists mem_empty. split; [reflexivity|]. exists mem_empty. split; [reflexivity|].
      apply twin_refl. intros n c G. cbn in G. rewrite get_empty in G. discriminate.
  Qed.
  Lemma saved_path saved k k' : d_path k' = d_path k -> saved_in saved k -> saved_in saved k'.
  Proof. unfold saved_in. intros ->. auto. Qed.
  Lemma holds_new : holds None [] p_new.
  Proof.
    split; [reflexivity|]. exists (Some mem_empty). split; [reflexivity|]. cbn. apply twin_refl. intros n c G. cbn in G. rewrite get_empty in G. discriminate.
  Qed.
  Lemma holds_restart saved live s : holds saved live s -> holds saved (back_to saved) (PState (p_open lim (p_disk s)) (p_disk s)).
  Proof.
    intros [FH _]. destruct (saved_opens _ _ FH) as (m & O & m0 & R & T0). split; [exact FH|]. exists (Some m). cbn [p_up]. split; [assumption|]. now rewrite R.
  Qed.
  Lemma holds_request saved live s a f r s' : holds saved live s -> a_req a <> RqSync -> s_step lim s (Ask a f) = (r, s') ->
    holds saved (live ++ [a]) s' /\ exists r', r = Some r'.
  Proof.
    intros [FH (st & U & T)] N E. cbn [s_step] in E. rewrite U in E. rewrite not_sync in E by assumption.
    destruct (handle_twins _ _ a T) as [_ T']. destruct (mhandle st a) as [r1 st1]. cbn [fst snd] in *. inversion E; subst.
    split; [|eauto]. split; [exact FH|]. exists st1. split; [reflexivity|]. unfold session. rewrite fold_left_app. exact T'.
  Qed.
  (** A [sync] that was acknowledged. *)
  Lemma holds_sync saved live s a f r s' : holds saved live s -> a_req a = RqSync ->
    (forall m, p_up s = Some (Some m) -> fits d m /\ flushed f m) -> s_step lim s (Ask a f) = (r, s') ->
    (r = Some (SOk RsEmpty) /\ holds (Some live) live s') \/ (exists e, r = Some (SErr e) /\ holds saved live s').
  Proof.
    intros [FH (st & U & T)] Rq Fe E. cbn [s_step] in E. rewrite U in E, Fe. unfold handle in E. rewrite Rq in E. cbn [serve] in E.
    unfold blocking, path_step in E. cbn [fst snd] in E. destruct st as [m|].
    - destruct (Fe m eq_refl) as [Fm Fl].
      destruct (fst (sync_disks f m (p_disk s))) as [[]|er|] eqn:R; cbn [omapo] in E; inversion E; subst; clear E.
      + left. split; [reflexivity|]. split.
        * cbn [p_disk snd]. rewrite (sync_disks_end _ _ _ R). rewrite flushed_all by assumption.
          cbn in T. destruct (msession live) as [m0|] eqn:R0; [|contradiction].
          exists m0, m, (fe_bytes f m). conj; auto. apply fe_bytes_ok.
        * exists (Some m). auto.
      + right. eexists. split; [reflexivity|]. split; [|exists (Some m); auto].
        eapply saved_path; [|exact FH]. apply sync_end_bad. congruence.
      + right. eexists. split; [reflexivity|]. split; [|exists (Some m); auto].
        eapply saved_path; [|exact FH]. apply sync_end_bad. congruence.
    - cbn in E. inversion E; subst. right. eexists. split; [reflexivity|]. split; [exact FH|]. exists None. auto.
  Qed.
  Lemma holds_killed saved live s f k : holds saved live s -> (forall m, p_up s = Some (Some m) -> fits d m /\ flushed f m) ->
    holds saved (back_to saved) (snd (s_step lim s (Killed f k))) \/ holds (Some live) live (snd (s_step lim s (Killed f k))).
  Proof.
    intros HH Fe. pose proof HH as [FH (st & U & T)]. cbn [s_step]. rewrite U in *.
    destruct st as [m|]; [|left; cbn [snd]; now apply holds_restart with (live := live)]. cbn [snd].
    destruct (Fe m eq_refl) as [Fm Fl].
    set (k1 := nth k (snd (sync_disks f m (p_disk s))) (sync_end f m (p_disk s))) in *.
    assert (In k1 (snd (sync_disks f m (p_disk s)))) as Hk.
    { destruct (nth_in_or_default k (snd (sync_disks f m (p_disk s))) (sync_end f m (p_disk s))) as [H|H]; [exact H|].
      unfold k1. rewrite H. apply sync_end_In. }
    destruct (sync_path _ _ _ _ Hk) as [Hp|[Hp _]].
    - left. apply (holds_restart (live := live) (s := PState (Some (Some m)) k1)). split; [now apply (saved_path _ _ _ Hp)|]. exists (Some m). auto.
    - right. cbn in T. destruct (msession live) as [m0|] eqn:R0; [|contradiction].
      apply (holds_restart (saved := Some live) (live := live) (s := PState (Some (Some m)) k1)). split; [|exists (Some m); rewrite R0; auto].
      exists m0, m, (fe_bytes f m). cbn [p_disk]. rewrite Hp, flushed_all by assumption. conj; auto. apply fe_bytes_ok.
  Qed.

  Lemma s_trace_app evs1 evs2 : forall s,
    s_trace lim s (evs1 ++ evs2) = let (rs1, s1) := s_trace lim s evs1 in let (rs2, s2) := s_trace lim s1 evs2 in (rs1 ++ rs2, s2).
  Proof.
    induction evs1 as [|e evs1 IH]; intros s; cbn [app s_trace]; [destruct (s_trace lim s evs2); reflexivity|].
    destruct (s_step lim s e) as [r s1]. rewrite IH. destruct (s_trace lim s1 evs1) as [rs1 s2]. destruct (s_trace lim s2 evs2) as [rs2 s3]. reflexivity.
  Qed.
  Lemma s_trace_length evs : forall s, length (fst (s_trace lim s evs)) = length evs.
  Proof.
    induction evs as [|e evs IH]; intros s; cbn [s_trace]; [reflexivity|].
    destruct (s_step lim s e) as [r s']. specialize (IH s'). destruct (s_trace lim s' evs). cbn in *. lia.
  Qed.
  Lemma syncs_ok_prefix evs1 evs2 : syncs_ok d lim (evs1 ++ evs2) -> syncs_ok d lim evs1.
  Proof. intros F e1 x e2 m -> Hm. apply (F e1 x (e2 ++ evs2) m); [|assumption]. now rewrite <- app_assoc. Qed.

  Theorem deployed evs rs s : syncs_ok d lim evs -> s_trace lim p_new evs = (rs, s) ->
    exists saved live, kept (combine evs rs) saved live /\ holds saved live s.
  Proof.
    revert rs s. induction evs as [|e evs IH] using rev_ind; intros rs s F E.
    - cbn in E. inversion E; subst. exists None, []. split; [constructor|apply holds_new].
    - rewrite s_trace_app in E. destruct (s_trace lim p_new evs) as [rs1 s1] eqn:E1. cbn [s_trace] in E.
      destruct (s_step lim s1 e) as [r s2] eqn:E2. inversion E; subst. clear E.
      assert (length rs1 = length evs) as Hl by (pose proof (s_trace_length evs p_new) as L; rewrite E1 in L; exact L).
      rewrite combine_snoc by now symmetry.
      destruct (IH rs1 s1 (@syncs_ok_prefix _ _ F) eq_refl) as (saved & live & K & HH).
      pose proof (F evs e []) as Fe. rewrite E1 in Fe. cbn [snd] in Fe.
      destruct e as [a f| |f k].
      + assert (a_req a = RqSync \/ a_req a <> RqSync) as [Rq|Rq] by (destruct (a_req a); ((left; reflexivity) || (right; discriminate))).
        * assert (forall m, p_up s1 = Some (Some m) -> fits d m /\ flushed f m) as Fe' by (intros m U; exact (Fe m eq_refl U Rq)).
          destruct (holds_sync a HH Rq Fe' E2) as [[-> H']|(er & -> & H')].
          { exists (Some live), live. split; [eapply kp_sync; eauto|exact H']. }
          { exists saved, live. split; [eapply kp_sync_failed; eauto|exact H']. }
        * destruct (holds_request a f HH Rq E2) as (H' & r' & ->). exists saved, (live ++ [a]). split; [now apply kp_request|exact H'].
      + cbn [s_step] in E2. inversion E2; subst. exists saved, (back_to saved). split; [eapply kp_restart; eauto|]. eapply holds_restart; eauto.
      + pose proof (holds_killed (f := f) k HH (fun m U => Fe m eq_refl U)) as X.
        assert (r = None) as -> by (cbn [s_step] in E2; destruct (p_up s1) as [[m|]|]; inversion E2; reflexivity).
        rewrite E2 in X. cbn [snd] in X. destruct X as [X|X].
        * exists saved, (back_to saved). split; [eapply kp_killed_before; eauto|exact X].
        * exists (Some live), live. split; [eapply kp_killed_after; eauto|exact X].
  Qed.
End Deploy.
