(** * Damaged image files, and power cuts.

    [sync] (memory/datastore.rs 291-303) neither flushes its buffered writer
    explicitly nor asks the operating system to write the file to the disk
    before it renames it over the old image: the image is complete in the eyes
    of other processes (Persist.v), but a power cut can leave less. *)
From Verif Require Import Base OMap Json Types Util UtilFacts Db Spec Mem MemFacts MemHist MsgPack Image MemSame Persist.

Set Implicit Arguments.
Local Open Scope list_scope.

(** ** More input does not change what is decoded *)

Lemma take_more n l s a r : take n l = Some (a, r) -> take n (l ++ s) = Some (a, r ++ s).
Proof.
  unfold take. rewrite app_length. destruct (Nat.leb_spec n (length l)); [|discriminate].
  destruct (Nat.leb_spec n (length l + length s)); [|lia]. intros E. inversion E; subst.
  rewrite firstn_app, skipn_app. replace (n - length l)%nat with 0%nat by lia. cbn [firstn skipn]. now rewrite app_nil_r.
Qed.
Lemma dec_uint_more k l s n r : dec_uint k l = Some (n, r) -> dec_uint k (l ++ s) = Some (n, r ++ s).
Proof.
  unfold dec_uint. destruct (take k l) as [[a x]|] eqn:E; cbn [obnd]; [|discriminate]. rewrite (take_more _ _ _ E). cbn [obnd].
  intros F. now inversion F.
Qed.
Lemma dec_str_more n l s x r : dec_str n l = Some (x, r) -> dec_str n (l ++ s) = Some (x, r ++ s).
Proof.
  unfold dec_str. destruct (take (N.to_nat n) l) as [[a y]|] eqn:E; cbn [obnd]; [|discriminate]. rewrite (take_more _ _ _ E). cbn [obnd].
  destruct (utf8_valid a); [|discriminate]. intros F. now inversion F.
Qed.
Lemma dec_bin_more n l s x r : dec_bin n l = Some (x, r) -> dec_bin n (l ++ s) = Some (x, r ++ s).
Proof.
  unfold dec_bin. destruct (take (N.to_nat n) l) as [[a y]|] eqn:E; cbn [obnd]; [|discriminate]. rewrite (take_more _ _ _ E). cbn [obnd].
  intros F. now inversion F.
Qed.

Section More.
  Context {A : Type}.
  Variable f : list byte -> option (A * list byte).
  Hypothesis f_more : forall l s x r, f l = Some (x, r) -> f (l ++ s) = Some (x, r ++ s).
  Lemma dec_list_more n : forall l s x r, dec_list f n l = Some (x, r) -> dec_list f n (l ++ s) = Some (x, r ++ s).
  Proof.
    induction n as [|n IH]; intros l s x r; cbn [dec_list].
    - intros E. now inversion E.
    - destruct (f l) as [[a y]|] eqn:E; cbn [obnd]; [|discriminate]. rewrite (f_more s E). cbn [obnd].
      destruct (dec_list f n y) as [[b z]|] eqn:E2; cbn [obnd]; [|discriminate]. rewrite (IH _ s _ _ E2). cbn [obnd].
      intros F. now inversion F.
  Qed.
  Lemma dec_items_more n l s x r : dec_items f n l = Some (x, r) -> dec_items f n (l ++ s) = Some (x, r ++ s).
  Proof.
    unfold dec_items, lenN. rewrite app_length. destruct (N.ltb_spec (N.of_nat (length l)) n); [discriminate|].
    destruct (N.ltb_spec (N.of_nat (length l + length s)) n); [lia|]. apply dec_list_more.
  Qed.
  Lemma dec_pair_more l s x r : dec_pair f l = Some (x, r) -> dec_pair f (l ++ s) = Some (x, r ++ s).
  Proof.
    unfold dec_pair. destruct (f l) as [[a y]|] eqn:E; cbn [obnd]; [|discriminate]. rewrite (f_more s E). cbn [obnd].
    destruct (f y) as [[b z]|] eqn:E2; cbn [obnd]; [|discriminate]. rewrite (f_more s E2). cbn [obnd].
    intros F. now inversion F.
  Qed.
End More.

Lemma dec_mp_more d : forall l s x r, dec_mp d l = Some (x, r) -> dec_mp d (l ++ s) = Some (x, r ++ s).
Proof.
  induction d as [|d IH]; intros l s x r; [discriminate|]. cbn [dec_mp]. destruct l as [|b l]; [discriminate|]. cbn [app].
  assert (forall n l x r, obnd (dec_items (dec_mp d) n l) (fun '(x, r') => Some (MArr x, r')) = Some (x, r) ->
            obnd (dec_items (dec_mp d) n (l ++ s)) (fun '(x, r') => Some (MArr x, r')) = Some (x, r ++ s)) as Ar.
  { intros n l0 x0 r0. destruct (dec_items (dec_mp d) n l0) as [[a y]|] eqn:E; cbn [obnd]; [|discriminate].
    rewrite (dec_items_more _ IH _ _ s E). cbn [obnd]. intros F. now inversion F. }
  assert (forall n l x r, obnd (dec_items (dec_pair (dec_mp d)) n l) (fun '(x, r') => Some (MMap x, r')) = Some (x, r) ->
            obnd (dec_items (dec_pair (dec_mp d)) n (l ++ s)) (fun '(x, r') => Some (MMap x, r')) = Some (x, r ++ s)) as Ma.
  { intros n l0 x0 r0. destruct (dec_items (dec_pair (dec_mp d)) n l0) as [[a y]|] eqn:E; cbn [obnd]; [|discriminate].
    rewrite (dec_items_more _ (dec_pair_more _ IH) _ _ s E). cbn [obnd]. intros F. now inversion F. }
  assert (forall k (g : N -> list byte -> option (mp * list byte)),
            (forall n l x r, g n l = Some (x, r) -> g n (l ++ s) = Some (x, r ++ s)) ->
            obnd (dec_uint k l) (fun '(n, r') => g n r') = Some (x, r) ->
            obnd (dec_uint k (l ++ s)) (fun '(n, r') => g n r') = Some (x, r ++ s)) as Un.
  { intros k g Hg. destruct (dec_uint k l) as [[a y]|] eqn:E; cbn [obnd]; [|discriminate].
    rewrite (dec_uint_more _ _ s E). cbn [obnd]. apply Hg. }
  destruct (marker_of b) as [z|k|k| |b0| |n|k|k|n|k|n|k|]; try discriminate;
    try (intros E; inversion E; subst; reflexivity).
  - apply (Un k (fun n r' => Some (MInt (Z.of_N n), r'))). intros n l0 x0 r0 E. now inversion E.
  - apply (Un k (fun n r' => Some (MInt (untwos k n), r'))). intros n l0 x0 r0 E. now inversion E.
  - apply (Un 8%nat (fun n r' => Some (MF64 n, r'))). intros n l0 x0 r0 E. now inversion E.
  - apply dec_str_more.
  - apply (Un k dec_str). intros. now apply dec_str_more.
  - apply (Un k dec_bin). intros. now apply dec_bin_more.
  - apply Ar.
  - apply (Un k (fun n r' => obnd (dec_items (dec_mp d) n r') (fun '(x, r'') => Some (MArr x, r'')))). intros. now apply Ar.
  - apply Ma.
  - apply (Un k (fun n r' => obnd (dec_items (dec_pair (dec_mp d)) n r') (fun '(x, r'') => Some (MMap x, r'')))). intros. now apply Ma.
Qed.

(** A file cut short anywhere is refused. *)
Lemma truncated d m b k : fits d m -> image m b -> (k < length b)%nat -> read_image (d + 6) (firstn k b) = None.
Proof.
  intros F (x & Hx & ->) L. destruct (memory_fits F Hx) as [W D].
  unfold read_image. destruct (dec_mp (d + 6) (firstn k (enc_mp x))) as [[y r]|] eqn:E; [|reflexivity]. exfalso.
  apply (dec_mp_more _ _ (skipn k (enc_mp x))) in E. rewrite firstn_skipn in E.
  pose proof (@dec_enc_mp x (d + 6) [] W D) as E2. rewrite app_nil_r in E2. rewrite E2 in E. injection E as _ E4.
  apply (f_equal (@length byte)) in E4. rewrite app_length, skipn_length in E4. cbn [length] in E4. lia.
Qed.

(** ** Sessions with power cuts

    The file at the path, and the earlier files it may still be replaced with
    by a power cut: the renames since the operating system last wrote
    everything back, oldest first. *)
Record xstate := XState { x_p : pstate; x_old : list (option (list byte)) }.

Inductive xevent :=
| XRun (e : pevent)         (* a call, a restart or a crash of the process (Persist.v) *)
| XWriteback                (* the operating system writes everything to the disk *)
| XPower (i k : nat).       (* the power fails; the process is started again *)

(** The rename of a [sync] took place. *)
Definition swaps (s : pstate) (e : pevent) : bool :=
  match e, p_up s with
  | PCall _ OSync f, Some (Some m) => match fst (sync_disks f m (p_disk s)) with Ok _ => true | _ => false end
  | PCrash f k, Some (Some m) =>
    match fst (sync_disks f m (p_disk s)) with Ok _ => (length (snd (sync_disks f m (p_disk s))) <=? S k)%nat | _ => false end
  | _, _ => false
  end.

(** A power cut: the file at the path is any of those whose replacement may not
    have reached the disk; of all but the oldest, which did reach the disk,
    only the first [k] bytes may be there.  Simplification: bytes that did not
    reach the disk are missing, not zero (C58_zeros_refuted is the case of zeros). *)
Definition power (old : list (option (list byte))) (now : option (list byte)) (i k : nat) : option (list byte) :=
  match old, i with
  | [], _ => now
  | v :: _, O => v
  | _, S _ => option_map (firstn k) (nth i (old ++ [now]) now)
  end.

Definition x_step (lim : nat) (dbg : bool) (s : xstate) (e : xevent) : option (outcome res) * xstate :=
  match e with
  | XRun e => let (r, p) := p_step lim dbg (x_p s) e in
              (r, XState p (if swaps (x_p s) e then x_old s ++ [d_path (p_disk (x_p s))] else x_old s))
  | XWriteback => (None, XState (x_p s) [])
  | XPower i k => let d := Disk (power (x_old s) (d_path (p_disk (x_p s))) i k) None in
                  (None, XState (PState (p_open lim d) d) [])
  end.
Fixpoint x_trace (lim : nat) (dbg : bool) (s : xstate) (evs : list xevent) : list (option (outcome res)) * xstate :=
  match evs with
  | [] => ([], s)
  | e :: evs' => let (r, s') := x_step lim dbg s e in
                 let (rs, s'') := x_trace lim dbg s' evs' in (r :: rs, s'')
  end.
Definition x_new : xstate := XState p_new [].

(** ** Specification: what comes back *)

(** What a file at the path is worth. *)
Inductive version := Nothing | Saved (l : callseq) | Broken.
(** Which calls a process started from it holds; [None]: it does not start. *)
Definition start (v : version) : option callseq :=
  match v with Nothing => Some [] | Saved l => Some l | Broken => None end.

Section Returns.
  (** The flush when the writer is dropped may write less than what is left. *)
  Variable short : Prop.

  (** [returns evs old file live]: after [evs] (with their results), the process
      holds the effects of the calls [live] ([None]: no process runs), the file
      is worth [file], and a power cut may bring back one of [old]. *)
  Inductive returns : list (xevent * option (outcome res)) -> list version -> version -> option callseq -> Prop :=
  | rt_nil : returns [] [] Nothing (Some [])
  | rt_call evs old v l ord o f r : returns evs old v (Some l) -> o <> OSync ->
      returns (evs ++ [(XRun (PCall ord o f), Some r)]) old v (Some (l ++ [(ord, o)]))
  | rt_sync evs old v l ord f x : returns evs old v (Some l) ->
      returns (evs ++ [(XRun (PCall ord OSync f), Some (Ok x))]) (old ++ [v]) (Saved l) (Some l)
  | rt_sync_short evs old v l ord f x : short -> returns evs old v (Some l) ->
      returns (evs ++ [(XRun (PCall ord OSync f), Some (Ok x))]) (old ++ [v]) Broken (Some l)
  | rt_sync_bad evs old v l ord f r : returns evs old v (Some l) -> (forall x, r <> Ok x) ->
      returns (evs ++ [(XRun (PCall ord OSync f), Some r)]) old v (Some l)
  | rt_down evs old v ord o f : returns evs old v None ->
      returns (evs ++ [(XRun (PCall ord o f), None)]) old v None
  | rt_restart evs old v live : returns evs old v live ->
      returns (evs ++ [(XRun PRestart, None)]) old v (start v)
  | rt_crash evs old v live f k : returns evs old v live ->
      returns (evs ++ [(XRun (PCrash f k), None)]) old v (start v)
  | rt_crash_after evs old v l f k : returns evs old v (Some l) ->
      returns (evs ++ [(XRun (PCrash f k), None)]) (old ++ [v]) (Saved l) (Some l)
  | rt_crash_short evs old v l f k : short -> returns evs old v (Some l) ->
      returns (evs ++ [(XRun (PCrash f k), None)]) (old ++ [v]) Broken None
  | rt_writeback evs old v live : returns evs old v live ->
      returns (evs ++ [(XWriteback, None)]) [] v live
  | rt_power evs old v live i k w : returns evs old v live -> In w (old ++ [v]) ->
      returns (evs ++ [(XPower i k, None)]) [] w (start w)
  | rt_power_torn evs old v live i k : returns evs old v live -> old <> [] ->
      returns (evs ++ [(XPower i k, None)]) [] Broken None.
End Returns.

(** Every sync finds a state within the format's limits. *)
Definition x_fits (d lim : nat) (dbg : bool) (short : Prop) (evs : list xevent) : Prop :=
  forall evs1 e evs2 m, evs = evs1 ++ e :: evs2 ->
    p_up (x_p (snd (x_trace lim dbg x_new evs1))) = Some (Some m) ->
    match e with
    | XRun (PCall _ OSync f) | XRun (PCrash f _) => fits d m /\ (short \/ flushed f m)
    | _ => True
    end.

Lemma x_trace_snoc lim dbg evs e : forall s rs s1 r s2,
  x_trace lim dbg s evs = (rs, s1) -> x_step lim dbg s1 e = (r, s2) ->
  x_trace lim dbg s (evs ++ [e]) = (rs ++ [r], s2).
Proof.
  induction evs as [|e0 evs IH]; intros s rs s1 r s2 H1 H2; cbn [x_trace app] in *.
  - inversion H1; subst. now rewrite H2.
  - destruct (x_step lim dbg s e0) as [r0 s0]. destruct (x_trace lim dbg s0 evs) as [rs' s'] eqn:E.
    inversion H1; subst. now rewrite (IH s0 rs' s1 r s2 E H2).
Qed.
Lemma x_trace_length lim dbg evs : forall s, length (fst (x_trace lim dbg s evs)) = length evs.
Proof.
  induction evs as [|e evs IH]; intros s; cbn [x_trace]; [reflexivity|].
  destruct (x_step lim dbg s e) as [r s']. specialize (IH s'). destruct (x_trace lim dbg s' evs). cbn in *. lia.
Qed.


Lemma sync_front f m k : fst (sync_disks f m k) = Ok tt -> exists front,
  snd (sync_disks f m k) = front ++ [Disk (Some (firstn (fe_early f + fe_late f) (fe_bytes f m))) None] /\
  Forall (fun k' => d_path k' = d_path k) front.
Proof.
  unfold sync_disks. destruct (fe_temp f); [|discriminate]. destruct (fe_wrote f); [|discriminate].
  destruct (fe_rename f); [|discriminate]. intros _. cbn [snd].
  eexists (k :: _ ++ _). cbn [app]. rewrite <- app_assoc. split; [reflexivity|].
  constructor; [reflexivity|]. apply Forall_app. split; apply Forall_forall; intros x Hx; apply in_map_iff in Hx as (j & <- & _); reflexivity.
Qed.

Lemma crash_disk f m k j :
  let L := snd (sync_disks f m k) in
  let k1 := nth j L (sync_end f m k) in
  let swap := match fst (sync_disks f m k) with Ok _ => (length L <=? S j)%nat | _ => false end in
  if swap then k1 = Disk (Some (firstn (fe_early f + fe_late f) (fe_bytes f m))) None else d_path k1 = d_path k.
Proof.
  cbv zeta. destruct (fst (sync_disks f m k)) as [[]|e|] eqn:E.
  - rewrite (sync_disks_end _ _ _ E). destruct (sync_front _ _ _ E) as (front & -> & F).
    rewrite app_length. cbn [length]. destruct (Nat.leb_spec (length front + 1) (S j)) as [H|H].
    + destruct (Nat.eq_dec j (length front)) as [->|N].
      * rewrite app_nth2, Nat.sub_diag; [reflexivity|lia].
      * apply nth_overflow. rewrite app_length. cbn [length]. lia.
    + rewrite app_nth1 by lia. rewrite Forall_forall in F. apply F, nth_In. lia.
  - destruct (nth_in_or_default j (snd (sync_disks f m k)) (sync_end f m k)) as [H|H].
    + destruct (sync_path _ _ _ _ H) as [P|[_ P]]; [exact P|congruence].
    + rewrite H. apply sync_end_bad. congruence.
  - destruct (nth_in_or_default j (snd (sync_disks f m k)) (sync_end f m k)) as [H|H].
    + destruct (sync_path _ _ _ _ H) as [P|[_ P]]; [exact P|congruence].
    + rewrite H. apply sync_end_bad. congruence.
Qed.

Section Sessions.
  Variable d : nat.
  Variable dbg : bool.
  Variable short : Prop.
  Notation lim := (d + 6)%nat.

  (** What a file holds. *)
  Definition broken (c : option (list byte)) : Prop :=
    exists m b k, fits d m /\ image m b /\ (k < length b)%nat /\ c = Some (firstn k b).
  Definition version_holds (v : version) (c : option (list byte)) : Prop :=
    match v with
    | Nothing => c = None
    | Saved l => file_holds d dbg (Some l) (Disk c None)
    | Broken => broken c
    end.

  Lemma broken_shut c t : broken c -> p_open lim (Disk c t) = None.
  Proof. intros (m & b & k & F & I & L & ->). unfold p_open. cbn [d_path]. now rewrite (truncated F I L). Qed.

  Lemma version_opens v c t : version_holds v c ->
    match start v with
    | Some l => exists m m0, p_open lim (Disk c t) = Some (Some m) /\ mem_run dbg l = Some m0 /\ twin m0 m
    | None => p_open lim (Disk c t) = None
    end.
  Proof.
    destruct v as [|l|]; cbn [version_holds start].
    - intros ->. destruct (@file_opens d dbg None (Disk None t) eq_refl) as (m & O & m0 & R & T). eauto.
    - intros FH. destruct (@file_opens d dbg (Some l) (Disk c t)) as (m & O & m0 & R & T); [|eauto].
      eapply file_path; [|exact FH]. reflexivity.
    - intros B. now apply broken_shut.
  Qed.

  Lemma version_firstn v c k : version_holds v c ->
    version_holds v (option_map (firstn k) c) \/ broken (option_map (firstn k) c).
  Proof.
    destruct v as [|l|]; cbn [version_holds].
    - intros ->. left. reflexivity.
    - intros (m & m' & b & R & T & F & I & E). cbn [d_path] in E. subst c. cbn [option_map].
      destruct (Nat.lt_ge_cases k (length b)) as [L|L].
      + right. exists m', b, k. auto.
      + left. exists m, m', b. rewrite firstn_all2 by exact L. auto.
    - intros (m & b & j & F & I & L & ->). cbn [option_map]. right. rewrite firstn_firstn. exists m, b, (Nat.min k j). conj; auto. lia.
  Qed.

  (** The process and the files, against what the specification says. *)
  Record tracks (old : list version) (v : version) (live : option callseq) (s : xstate) : Prop := Tracks {
    tr_old : Forall2 version_holds old (x_old s);
    tr_now : version_holds v (d_path (p_disk (x_p s)));
    tr_live : match live with
              | None => p_up (x_p s) = None
              | Some l => exists st, p_up (x_p s) = Some st /\ twin_db (mem_run dbg l) st
              end }.

  Lemma tracks_open v c t : version_holds v c ->
    tracks [] v (start v) (XState (PState (p_open lim (Disk c t)) (Disk c t)) []).
  Proof.
    intros H. split; [constructor|exact H|]. cbn [x_p p_up]. pose proof (@version_opens v c t H) as O.
    destruct (start v) as [l|]; [|exact O]. destruct O as (m & m0 & O & R & T). exists (Some m). rewrite R. auto.
  Qed.

  (** After the rename of a [sync]. *)
  Lemma new_version l m f : fits d m -> (short \/ flushed f m) -> twin_db (mem_run dbg l) (Some m) ->
    version_holds (Saved l) (Some (firstn (fe_early f + fe_late f) (fe_bytes f m))) \/
    short /\ broken (Some (firstn (fe_early f + fe_late f) (fe_bytes f m))).
  Proof.
    intros F S T. cbn in T. destruct (mem_run dbg l) as [m0|] eqn:R; [|contradiction].
    destruct (Nat.lt_ge_cases (fe_early f + fe_late f) (length (fe_bytes f m))) as [L|L].
    - destruct S as [S|S]; [|unfold flushed in S; lia]. right. split; [exact S|].
      exists m, (fe_bytes f m), (fe_early f + fe_late f)%nat. conj; auto. apply fe_bytes_ok.
    - left. cbn [version_holds]. exists m0, m, (fe_bytes f m). rewrite firstn_all2 by exact L. conj; auto. apply fe_bytes_ok.
  Qed.

  Theorem x_sessions evs rs s :
    x_fits d lim dbg short evs -> x_trace lim dbg x_new evs = (rs, s) ->
    exists old v live, returns short (combine evs rs) old v live /\ tracks old v live s.
  Proof.
    revert rs s. induction evs as [|e evs IH] using rev_ind; intros rs s F E.
    - cbn in E. inversion E; subst. exists [], Nothing, (Some []). split; [constructor|]. split; [constructor|reflexivity|].
      exists (Some mem_empty). split; [reflexivity|]. cbn. apply twin_refl. intros n c G. cbn in G. rewrite get_empty in G. discriminate.
    - destruct (x_trace lim dbg x_new evs) as [rs1 s1] eqn:E1. destruct (x_step lim dbg s1 e) as [r s2] eqn:E2.
      rewrite (x_trace_snoc _ _ _ _ _ E1 E2) in E. inversion E; subst. clear E.
      assert (length rs1 = length evs) as Hl by (pose proof (x_trace_length lim dbg evs x_new) as L; rewrite E1 in L; exact L).
      rewrite combine_snoc by now symmetry.
      destruct (IH rs1 s1) as (old & v & live & RT & [TO TN TL]); [|reflexivity|].
      { intros e1 x e2 m -> Hm. apply (F e1 x (e2 ++ [e]) m); [|assumption]. now rewrite <- app_assoc. }
      pose proof (F evs e [] ) as Fe. rewrite E1 in Fe. cbn [snd] in Fe.
      destruct e as [e| |i k]; cbn [x_step] in E2.
      + destruct s1 as [p1 o1]. cbn [x_p x_old] in *. destruct p1 as [up k0]. cbn [p_up p_disk] in *.
        destruct e as [ord o f| |f k]; cbn [p_step p_up p_disk] in E2.
        * destruct live as [l|].
          -- destruct TL as (st & -> & T).
             assert (o = OSync \/ o <> OSync) as [->|No] by (destruct o; ((left; reflexivity) || (right; discriminate))).
             ++ destruct st as [m|].
                ** destruct (Fe m eq_refl eq_refl) as [Fm Fl].
                   cbn [swaps p_up p_disk] in E2.
                   destruct (fst (sync_disks f m k0)) as [[]|er|] eqn:R; cbn [omapo] in E2; inversion E2; subst; clear E2.
                   --- destruct (@new_version l _ _ Fm Fl T) as [V|[Sh B]].
                       +++ exists (old ++ [v]), (Saved l), (Some l). split; [now apply rt_sync|]. split; cbn [x_old x_p p_disk p_up].
                           *** apply Forall2_app; [exact TO|]. constructor; [exact TN|constructor].
                           *** rewrite (sync_disks_end _ _ _ R). exact V.
                           *** eauto.
                       +++ exists (old ++ [v]), Broken, (Some l). split; [now apply rt_sync_short|]. split; cbn [x_old x_p p_disk p_up].
                           *** apply Forall2_app; [exact TO|]. constructor; [exact TN|constructor].
                           *** rewrite (sync_disks_end _ _ _ R). exact B.
                           *** eauto.
                   --- exists old, v, (Some l). split; [apply rt_sync_bad; [exact RT|congruence]|]. split; cbn [x_old x_p p_disk p_up]; [exact TO| |eauto].
                       rewrite sync_end_bad by congruence. exact TN.
                   --- exists old, v, (Some l). split; [apply rt_sync_bad; [exact RT|congruence]|]. split; cbn [x_old x_p p_disk p_up]; [exact TO| |eauto].
                       rewrite sync_end_bad by congruence. exact TN.
                ** cbn in E2. inversion E2; subst. exists old, v, (Some l). split; [apply rt_sync_bad; [exact RT|congruence]|].
                   split; cbn [x_old x_p p_disk p_up]; eauto.
             ++ destruct (mem_step dbg st (ord, o)) as [r1 st1] eqn:Es.
                assert (r = Some r1 /\ s = XState (PState (Some st1) k0) o1) as [-> ->].
                { destruct o, st; try (now elim No); inversion E2; auto. }
                exists old, v, (Some (l ++ [(ord, o)])). split; [now apply rt_call|]. split; cbn [x_old x_p p_disk p_up]; auto.
                exists st1. split; [reflexivity|]. rewrite mem_run_snoc.
                destruct (step_twins dbg (mem_run dbg l) st (ord, o) T) as [_ T']. now rewrite Es in T'.
          -- rewrite TL in E2. assert (r = None /\ s = XState (PState None k0) o1) as [-> ->].
             { destruct o; inversion E2; auto. }
             exists old, v, None. split; [now apply rt_down|]. split; auto.
        * inversion E2; subst. exists old, v, (start v). split; [eapply rt_restart; exact RT|].
          destruct k0 as [c t]. destruct (@tracks_open v _ t TN) as [_ _ TL']. split; auto.
        * assert (forall r s, (None, XState (PState (p_open lim k0) k0) o1) = (r, s) ->
             exists old' v' live', returns short (combine evs rs1 ++ [(XRun (PCrash f k), r)]) old' v' live' /\ tracks old' v' live' s) as Plain.
          { intros r0 s0 E0. inversion E0; subst. exists old, v, (start v). split; [eapply rt_crash; exact RT|].
            destruct k0 as [c t]. destruct (@tracks_open v _ t TN) as [_ _ TL']. split; auto. }
          destruct up as [[m|]|]; cbn [swaps p_up p_disk] in E2; [|now apply Plain|now apply Plain].
          destruct live as [l|]; [|discriminate]. destruct TL as (st & Es & T). inversion Es; subst st. clear Es.
          destruct (Fe m eq_refl eq_refl) as [Fm Fl]. pose proof (crash_disk f m k0 k) as CD. cbv zeta in CD.
          set (k1 := nth k (snd (sync_disks f m k0)) (sync_end f m k0)) in *.
          destruct (match fst (sync_disks f m k0) with Ok _ => (length (snd (sync_disks f m k0)) <=? S k)%nat | _ => false end);
            inversion E2; subst r s; clear E2.
          -- destruct (@new_version l _ _ Fm Fl T) as [V|[Sh B]].
             ++ exists (old ++ [v]), (Saved l), (Some l). split; [now apply rt_crash_after|].
                clearbody k1. subst k1. destruct (@tracks_open (Saved l) _ None V) as [_ _ TL']. split; auto.
                cbn [x_old]. apply Forall2_app; [exact TO|]. constructor; [exact TN|constructor].
             ++ exists (old ++ [v]), Broken, None. split; [eapply rt_crash_short; [exact Sh|exact RT]|].
                clearbody k1. subst k1. destruct (@tracks_open Broken _ None B) as [_ _ TL']. split; auto.
                cbn [x_old]. apply Forall2_app; [exact TO|]. constructor; [exact TN|constructor].
          -- exists old, v, (start v). split; [eapply rt_crash; exact RT|]. rewrite <- CD in TN. destruct k1 as [c t].
             destruct (@tracks_open v _ t TN) as [_ _ TL']. split; auto.
      + inversion E2; subst. exists [], v, live. split; [eapply rt_writeback; exact RT|]. split; auto. constructor.
      + inversion E2; subst r s. clear E2.
        destruct s1 as [p1 o1]. cbn [x_p x_old] in *. set (now := d_path (p_disk p1)) in *. clearbody now.
        assert (Forall2 version_holds (old ++ [v]) (o1 ++ [now])) as FA.
        { apply Forall2_app; [exact TO|]. constructor; [exact TN|constructor]. }
        destruct TO as [|w0 c0 old o1 Hw0 TO]; cbn [power].
        { exists [], v, (start v). split; [eapply rt_power; [exact RT|now left]|]. now apply tracks_open. }
        destruct i as [|i].
        { exists [], w0, (start w0). split; [eapply rt_power; [exact RT|now left]|]. now apply tracks_open. }
        assert (exists w, In w ((w0 :: old) ++ [v]) /\ version_holds w (nth (S i) ((c0 :: o1) ++ [now]) now)) as (w & Hin & Hw).
        { destruct (nth_in_or_default (S i) ((c0 :: o1) ++ [now]) now) as [H|H].
          - revert H. generalize (nth (S i) ((c0 :: o1) ++ [now]) now). clear - FA. intros c H.
            induction FA as [|a b l l' Hab FA IH]; [destruct H|]. destruct H as [<-|H]; [exists a; split; [now left|exact Hab]|].
            destruct (IH H) as (w & ? & ?). exists w. split; [now right|assumption].
          - rewrite H. exists v. split; [|exact TN]. apply in_or_app. right. now left. }
        destruct (@version_firstn w _ k Hw) as [H|H].
        * exists [], w, (start w). split; [eapply rt_power; [exact RT|exact Hin]|]. now apply tracks_open.
        * exists [], Broken, None. split; [eapply rt_power_torn; [exact RT|discriminate]|].
          exact (@tracks_open Broken _ None H).
  Qed.
End Sessions.
