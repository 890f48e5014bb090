(** * An in-memory database with a persistence path. *)
From Verif Require Import Base OMap Json Types Util Db Spec QueryFacts SpecFacts JsonFacts UtilFacts Mem MemFacts MemHist
  MsgPack Image MemSame.

Set Implicit Arguments.

(** ** One [sync] *)

(** What the operating system and the hash maps do during one [sync]. *)
Record fenv := FEnv {
  fe_bytes : memory -> list byte;           (* what the encoder produces *)
  fe_bytes_ok : forall m, image m (fe_bytes m);
  fe_temp : bool;                            (* the temporary file is created *)
  fe_early : nat;                            (* bytes written while encoding *)
  fe_wrote : bool;                           (* those writes succeed *)
  fe_late : nat;                             (* bytes written when the [BufWriter] is dropped *)
  fe_rename : bool }.                        (* the rename succeeds *)

(** The file at the persistence path, and the temporary file. *)
Record disk := Disk { d_path : option (list byte); d_temp : option (list byte) }.

(** memory/datastore.rs 291-303: the result, and the contents of the disk over
    time (oldest first).  The encoder writes through a [BufWriter]: a failing
    write while encoding is reported (296), the flush when the writer is
    dropped (297) has its error discarded by the standard library.  The
    temporary file is removed when [sync] fails.  [persist] (298-300) is a
    rename. *)
Definition sync_disks (f : fenv) (m : memory) (d : disk) : outcome unit * list disk :=
  if fe_temp f then
    let b := fe_bytes f m in
    let part k := Disk (d_path d) (Some (firstn k b)) in
    let early := map part (seq 0 (S (fe_early f))) in
    if fe_wrote f then
      let late := map part (seq (fe_early f) (S (fe_late f))) in
      if fe_rename f
      then (Ok tt, d :: early ++ late ++ [Disk (Some (firstn (fe_early f + fe_late f) b)) None])
      else (Err EDatastore, d :: early ++ late ++ [Disk (d_path d) None])
    else (Err EDatastore, d :: early ++ [Disk (d_path d) None])
  else (Err EDatastore, [d]).

(** The disk when [sync] has returned. *)
Definition sync_end (f : fenv) (m : memory) (d : disk) : disk := last (snd (sync_disks f m d)) d.

(** The flush on drop wrote everything that was left. *)
Definition flushed (f : fenv) (m : memory) : Prop := (length (fe_bytes f m) <= fe_early f + fe_late f)%nat.

(** ** Sessions *)

(** A running process ([None]: it could not open the file), and the disk. *)
Record pstate := PState { p_up : option mem_db; p_disk : disk }.

Inductive pevent :=
| PCall (ord : order) (o : op) (f : fenv)  (* a call; [f] is used by [sync] *)
| PRestart                                  (* the process stops and starts again *)
| PCrash (f : fenv) (k : nat).              (* killed during [sync], then started again *)

(** server/src/main.rs 64-71: read the file if it exists, else start empty. *)
Definition p_open (lim : nat) (d : disk) : option mem_db :=
  match d_path d with
  | Some b => option_map Some (read_image lim b)
  | None => Some (Some mem_empty)
  end.

(** One event (memory/datastore.rs 291-303, 412-448). *)
Definition p_step (lim : nat) (dbg : bool) (s : pstate) (e : pevent) : option (outcome res) * pstate :=
  match e with
  | PCall ord o f =>
    match p_up s with
    | None => (None, s)
    | Some st =>
      match o, st with
      | OSync, Some m =>
        (Some (omapo (fun _ => RUnit) (fst (sync_disks f m (p_disk s)))),
         PState (Some st) (sync_end f m (p_disk s)))
      | _, _ => let (r, st') := mem_step dbg st (ord, o) in (Some r, PState (Some st') (p_disk s))
      end
    end
  | PRestart => (None, PState (p_open lim (p_disk s)) (p_disk s))
  | PCrash f k =>
    match p_up s with
    | Some (Some m) =>
      let d := nth k (snd (sync_disks f m (p_disk s))) (sync_end f m (p_disk s)) in
      (None, PState (p_open lim d) d)
    | _ => (None, PState (p_open lim (p_disk s)) (p_disk s))
    end
  end.

(** A fresh database with a path ([create_msgpack_db], 439-448) where no file exists. *)
Definition p_new : pstate := PState (Some (Some mem_empty)) (Disk None None).

(** A session. *)
Fixpoint p_trace (lim : nat) (dbg : bool) (s : pstate) (evs : list pevent) : list (option (outcome res)) * pstate :=
  match evs with
  | [] => ([], s)
  | e :: evs' => let (r, s') := p_step lim dbg s e in
                 let (rs, s'') := p_trace lim dbg s' evs' in (r :: rs, s'')
  end.

(** ** Specification: which calls survive

    [survives evs saved live]: after the events [evs] (with their results) the
    database holds the effects of the calls [live]; [saved] are the calls whose
    effects are in the file. *)
Notation callseq := (list (order * op)).
Inductive survives : list (pevent * option (outcome res)) -> option callseq -> callseq -> Prop :=
| sv_nil : survives [] None []
| sv_sync_ok evs saved live ord f x : survives evs saved live ->
    survives (evs ++ [(PCall ord OSync f, Some (Ok x))]) (Some live) live
| sv_sync_bad evs saved live ord f r : survives evs saved live -> (forall x, r <> Ok x) ->
    survives (evs ++ [(PCall ord OSync f, Some r)]) saved live
| sv_call evs saved live ord o f r : survives evs saved live -> o <> OSync ->
    survives (evs ++ [(PCall ord o f, Some r)]) saved (live ++ [(ord, o)])
| sv_restart evs saved live : survives evs saved live ->
    survives (evs ++ [(PRestart, None)]) saved (match saved with Some l => l | None => [] end)
| sv_crash_before evs saved live f k : survives evs saved live ->
    survives (evs ++ [(PCrash f k, None)]) saved (match saved with Some l => l | None => [] end)
| sv_crash_after evs saved live f k : survives evs saved live ->
    survives (evs ++ [(PCrash f k, None)]) (Some live) live.

(** ** One sync *)

Lemma sync_disks_end f m d x : fst (sync_disks f m d) = Ok x ->
  sync_end f m d = Disk (Some (firstn (fe_early f + fe_late f) (fe_bytes f m))) None.
Proof.
  unfold sync_end, sync_disks. destruct (fe_temp f); [|discriminate]. destruct (fe_wrote f); [|discriminate].
  destruct (fe_rename f); [|discriminate]. intros _. cbn [snd].
  rewrite !app_comm_cons, app_assoc. apply last_last.
Qed.

Lemma sync_path f m d d' : In d' (snd (sync_disks f m d)) ->
  d_path d' = d_path d \/
  d' = Disk (Some (firstn (fe_early f + fe_late f) (fe_bytes f m))) None /\ fst (sync_disks f m d) = Ok tt.
Proof.
  unfold sync_disks. destruct (fe_temp f); [destruct (fe_wrote f); [destruct (fe_rename f)|]|]; cbn [fst snd In];
    rewrite ?in_app_iff, ?in_map_iff; cbn [In]; intros H.
  - destruct H as [<-|[(k & <- & _)|[(k & <- & _)|[<-|[]]]]]; auto.
  - destruct H as [<-|[(k & <- & _)|[(k & <- & _)|[<-|[]]]]]; auto.
  - destruct H as [<-|[(k & <- & _)|[<-|[]]]]; auto.
  - destruct H as [<-|[]]; auto.
Qed.

Lemma sync_end_In f m d : In (sync_end f m d) (snd (sync_disks f m d)).
Proof.
  unfold sync_end. assert (snd (sync_disks f m d) <> []) as N.
  { unfold sync_disks. destruct (fe_temp f); [destruct (fe_wrote f); [destruct (fe_rename f)|]|]; discriminate. }
  rewrite (app_removelast_last d N) at 2. apply in_or_app. right. now left.
Qed.

Lemma sync_end_bad f m d : fst (sync_disks f m d) <> Ok tt -> d_path (sync_end f m d) = d_path d.
Proof. intros N. destruct (sync_path f m d _ (sync_end_In f m d)) as [E|[_ E]]; [assumption|contradiction]. Qed.

(** ** Sessions *)

Lemma twin_trans a b c : twin a b -> same_memory b c -> twin a c.
Proof.
  intros T S2. pose proof T as [S1 C]. split; [|exact C]. split; try (etransitivity; [apply S1|apply S2]).
  intros n. pose proof (twin_get n T) as G. pose proof (sm_index S2 n) as H.
  destruct (get n (m_index a)), (get n (m_index b)), (get n (m_index c)); try contradiction; auto.
  destruct G as [P _]. eapply perm_trans; eauto.
Qed.

Lemma p_trace_snoc lim dbg evs e : forall s rs s1 r s2,
  p_trace lim dbg s evs = (rs, s1) -> p_step lim dbg s1 e = (r, s2) ->
  p_trace lim dbg s (evs ++ [e]) = (rs ++ [r], s2).
Proof.
  induction evs as [|e0 evs IH]; intros s rs s1 r s2 H1 H2; cbn [p_trace app] in *.
  - inversion H1; subst. now rewrite H2.
  - destruct (p_step lim dbg s e0) as [r0 s0]. destruct (p_trace lim dbg s0 evs) as [rs' s'] eqn:E.
    inversion H1; subst. now rewrite (IH s0 rs' s1 r s2 E H2).
Qed.

Lemma p_trace_length lim dbg evs : forall s, length (fst (p_trace lim dbg s evs)) = length evs.
Proof.
  induction evs as [|e evs IH]; intros s; cbn [p_trace]; [reflexivity|].
  destruct (p_step lim dbg s e) as [r s']. specialize (IH s'). destruct (p_trace lim dbg s' evs). cbn in *. lia.
Qed.

Lemma combine_snoc {A B} (l : list A) : forall (l' : list B) a b, length l = length l' ->
  combine (l ++ [a]) (l' ++ [b]) = combine l l' ++ [(a, b)].
Proof.
  induction l as [|x l IH]; intros [|y l'] a b H; try discriminate; [reflexivity|]. cbn [app combine]. f_equal. apply IH. now inversion H.
Qed.

(** Every sync during the session finds a state within the format's limits,
    and the flush on drop writes all that is left in the buffer. *)
Definition syncs_fit (d lim : nat) (dbg : bool) (evs : list pevent) : Prop :=
  forall evs1 e evs2 m, evs = evs1 ++ e :: evs2 ->
    p_up (snd (p_trace lim dbg p_new evs1)) = Some (Some m) ->
    match e with
    | PCall _ OSync f | PCrash f _ => fits d m /\ flushed f m
    | _ => True
    end.

Section Sessions.
  Variable d : nat.
  Variable dbg : bool.
  Notation lim := (d + 6)%nat.

  Definition file_holds (saved : option callseq) (k : disk) : Prop :=
    match saved with
    | None => d_path k = None
    | Some l => exists m m' b, mem_run dbg l = Some m /\ twin m m' /\ fits d m' /\ image m' b /\ d_path k = Some b
    end.

  Lemma file_opens saved k : file_holds saved k ->
    exists m, p_open lim k = Some (Some m) /\
      exists m0, mem_run dbg (match saved with Some l => l | None => [] end) = Some m0 /\ twin m0 m.
  Proof.
    unfold file_holds, p_open. destruct saved as [l|].
    - intros (m & m' & b & R & T & F & I & ->).
      destruct (read_image_of [] (twin_cok T) F I) as (m2 & E & S & C). rewrite app_nil_r in E. rewrite E.
      exists m2. split; [reflexivity|]. exists m. split; [assumption|]. eapply twin_trans; eauto.
    - intros ->. exists mem_empty. split; [reflexivity|]. exists mem_empty. split; [reflexivity|].
      apply twin_refl. intros n c G. cbn in G. rewrite get_empty in G. discriminate.
  Qed.

  Lemma file_path saved k k' : d_path k' = d_path k -> file_holds saved k -> file_holds saved k'.
  Proof. unfold file_holds. intros ->. auto. Qed.

  Lemma flushed_all f m : flushed f m -> firstn (fe_early f + fe_late f) (fe_bytes f m) = fe_bytes f m.
  Proof. intros F. now apply firstn_all2. Qed.

  (** The result: the surviving calls determine everything the database will
      answer from now on. *)
  Theorem sessions evs rs s :
    syncs_fit d lim dbg evs -> p_trace lim dbg p_new evs = (rs, s) ->
    exists saved live, survives (combine evs rs) saved live /\ file_holds saved (p_disk s) /\
      exists st, p_up s = Some st /\ twin_db (mem_run dbg live) st.
  Proof.
    revert rs s. induction evs as [|e evs IH] using rev_ind; intros rs s F E.
    - cbn in E. inversion E; subst. exists None, []. conj; [constructor|reflexivity|].
      exists (Some mem_empty). split; [reflexivity|]. cbn. apply twin_refl. intros n c G. cbn in G. rewrite get_empty in G. discriminate.
    - destruct (p_trace lim dbg p_new evs) as [rs1 s1] eqn:E1. destruct (p_step lim dbg s1 e) as [r s2] eqn:E2.
      rewrite (p_trace_snoc _ _ _ _ _ E1 E2) in E. inversion E; subst. clear E.
      assert (length rs1 = length evs) as Hl by (pose proof (p_trace_length lim dbg evs p_new) as L; rewrite E1 in L; exact L).
      rewrite combine_snoc by now symmetry.
      destruct (IH rs1 s1) as (saved & live & SV & FH & st & U & T); [|reflexivity|].
      { intros e1 x e2 m -> Hm. apply (F e1 x (e2 ++ [e]) m); [|assumption]. now rewrite <- app_assoc. }
      pose proof (F evs e [] ) as Fe. rewrite E1 in Fe. cbn [snd] in Fe. rewrite U in Fe.
      destruct e as [ord o f| |f k]; cbn [p_step] in E2.
      + rewrite U in E2.
        assert (o = OSync \/ o <> OSync) as [->|No] by (destruct o; ((left; reflexivity) || (right; discriminate))).
        * destruct st as [m|].
          -- destruct (Fe m eq_refl eq_refl) as [Fm Fl]. inversion E2; subst. clear E2. cbn [p_disk p_up].
             destruct (fst (sync_disks f m (p_disk s1))) as [[]|er|] eqn:R; cbn [omapo].
             ++ exists (Some live), live. conj; [eapply sv_sync_ok; exact SV|..].
                ** rewrite (sync_disks_end _ _ _ R). rewrite flushed_all by assumption.
                   cbn in T. destruct (mem_run dbg live) as [m0|] eqn:R0; [|contradiction].
                   exists m0, m, (fe_bytes f m). conj; auto. apply fe_bytes_ok.
                ** exists (Some m). auto.
             ++ exists saved, live. conj; [eapply sv_sync_bad; [exact SV|congruence]|..].
                ** eapply file_path; [|exact FH]. apply sync_end_bad. congruence.
                ** exists (Some m). auto.
             ++ exists saved, live. conj; [eapply sv_sync_bad; [exact SV|congruence]|..].
                ** eapply file_path; [|exact FH]. apply sync_end_bad. congruence.
                ** exists (Some m). auto.
          -- cbn in E2. inversion E2; subst. exists saved, live. conj; [eapply sv_sync_bad; [exact SV|congruence]|exact FH|].
             exists None. auto.
        * destruct (mem_step dbg st (ord, o)) as [r1 st1] eqn:Es.
          assert (r = Some r1 /\ s = PState (Some st1) (p_disk s1)) as [-> ->].
          { destruct o, st; try (now elim No); inversion E2; auto. }
          exists saved, (live ++ [(ord, o)]). conj; [now apply sv_call with (live := live)|exact FH|].
          exists st1. split; [reflexivity|]. rewrite mem_run_snoc.
          destruct (step_twins dbg (mem_run dbg live) st (ord, o) T) as [_ T']. now rewrite Es in T'.
      + inversion E2; subst. destruct (file_opens saved _ FH) as (m & O & m0 & R & T0).
        exists saved, (match saved with Some l => l | None => [] end). conj; [eapply sv_restart; exact SV|exact FH|].
        exists (Some m). cbn [p_up]. split; [assumption|]. now rewrite R.
      + destruct (p_up s1) as [[m|]|] eqn:U1; try discriminate; inversion U; subst.
        * destruct (Fe m eq_refl eq_refl) as [Fm Fl]. inversion E2; subst. clear E2. cbn [p_disk p_up].
          set (k1 := nth k (snd (sync_disks f m (p_disk s1))) (sync_end f m (p_disk s1))) in *.
          assert (In k1 (snd (sync_disks f m (p_disk s1)))) as Hk.
          { destruct (nth_in_or_default k (snd (sync_disks f m (p_disk s1))) (sync_end f m (p_disk s1))) as [H|H]; [exact H|].
            unfold k1. rewrite H. apply sync_end_In. }
          destruct (sync_path _ _ _ _ Hk) as [Hp|[Hp _]].
          -- apply (file_path _ _ _ Hp) in FH. destruct (file_opens saved _ FH) as (m1 & O & m0 & R & T0).
             exists saved, (match saved with Some l => l | None => [] end). conj; [eapply sv_crash_before; exact SV|exact FH|].
             exists (Some m1). split; [assumption|]. now rewrite R.
          -- cbn in T. destruct (mem_run dbg live) as [m0|] eqn:R0; [|contradiction].
             assert (file_holds (Some live) k1) as FH'.
             { exists m0, m, (fe_bytes f m). rewrite Hp, flushed_all by assumption. conj; auto. apply fe_bytes_ok. }
             destruct (file_opens _ _ FH') as (m1 & O & m2 & R & T0). cbn in R.
             exists (Some live), live. conj; [eapply sv_crash_after; exact SV|exact FH'|].
             exists (Some m1). split; [assumption|]. rewrite R. exact T0.
        * inversion E2; subst. destruct (file_opens saved _ FH) as (m & O & m0 & R & T0).
          exists saved, (match saved with Some l => l | None => [] end). conj; [eapply sv_crash_before; exact SV|exact FH|].
          exists (Some m). cbn [p_up]. split; [assumption|]. now rewrite R.
  Qed.
End Sessions.
