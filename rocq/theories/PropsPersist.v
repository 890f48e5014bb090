(** * C24: syncing and reopening an in-memory database. *)
From Verif Require Import Base OMap Json Types Util Db Spec QueryFacts SpecFacts JsonFacts UtilFacts Mem MemFacts MemHist
  RdbSpec Stages Claims PropsMem PropsMemIndex Examples MsgPack Image MemSame Persist.

Set Implicit Arguments.

(** ** The claims *)

(** After a successful sync (whose last flush wrote everything), reopening
    succeeds, shows the same graph, and every later sequence of calls returns
    what it would have returned without reopening. *)
Theorem C24_mem_reopen_partial dbg h m d f k :
  mem_run dbg h = Some m -> fits d m -> flushed f m ->
  fst (sync_disks f m k) = Ok tt ->
  exists m', p_open (d + 6) (sync_end f m k) = Some (Some m') /\ gof m' = gof m /\
    forall later, fst (mem_trace dbg (Some m') later) = fst (mem_trace dbg (Some m) later).
Proof.
  intros R F FL E. destruct (run_weak dbg h R) as (C & _).
  assert (file_holds d dbg (Some h) (sync_end f m k)) as FH.
  { exists m, m, (fe_bytes f m). rewrite (sync_disks_end _ _ _ E), flushed_all by assumption.
    conj; auto; [now apply twin_refl|apply fe_bytes_ok]. }
  destruct (@file_opens d dbg _ _ FH) as (m' & O & m0 & R0 & T). cbn in R0. rewrite R in R0. inversion R0; subst m0.
  exists m'. conj; [assumption|symmetry; now apply twin_gof|].
  intros later. symmetry. now apply trace_twins.
Qed.

(** At every moment during a sync the file at the path is the old one or the
    complete new image; when sync returns an error it is the old one. *)
Theorem C24_mem_sync_atomic_partial f m k k' : flushed f m ->
  In k' (snd (sync_disks f m k)) ->
  d_path k' = d_path k \/ (exists b, image m b /\ d_path k' = Some b).
Proof.
  intros FL Hk. destruct (sync_path _ _ _ _ Hk) as [H|[-> _]]; [auto|right].
  exists (fe_bytes f m). rewrite flushed_all by assumption. split; [apply fe_bytes_ok|reflexivity].
Qed.

Theorem C24_mem_sync_failed_partial f m k : fst (sync_disks f m k) <> Ok tt ->
  forall k', In k' (snd (sync_disks f m k)) -> d_path k' = d_path k.
Proof. intros N k' Hk. destruct (sync_path _ _ _ _ Hk) as [H|[_ E]]; [assumption|contradiction]. Qed.

(** Whole sessions with any number of syncs, failures, restarts and crashes
    during sync: the process always comes back, holding exactly the calls that
    survive ([survives]): each restart returns to the last successful sync; a
    crash during sync to the last successful sync or to the one in progress.
    Whatever is asked next is answered as by a database that only ever ran
    those calls. *)
Theorem C24_mem_sessions_partial d dbg evs rs s :
  syncs_fit d (d + 6) dbg evs -> p_trace (d + 6) dbg p_new evs = (rs, s) ->
  exists saved live st, survives (combine evs rs) saved live /\ p_up s = Some st /\
    (forall later, fst (mem_trace dbg st later) = fst (mem_trace dbg (mem_run dbg live) later)) /\
    (forall m, st = Some m -> exists m0, mem_run dbg live = Some m0 /\ gof m = gof m0).
Proof.
  intros F E. destruct (@sessions d dbg _ _ _ F E) as (saved & live & SV & _ & st & U & T).
  exists saved, live, st. conj; auto.
  - intros later. symmetry. now apply trace_twins.
  - intros m ->. cbn in T. destruct (mem_run dbg live) as [m0|]; [|contradiction]. exists m0. split; [reflexivity|].
    symmetry. now apply twin_gof.
Qed.

(** ** A concrete session *)

Definition member_image (ms : oset member) : mp := MArr (map member_mp (keys ms)).
Definition container_mp (c : container) : mp := MMap (map (fun kv => (json_mp (fst kv), member_image (snd kv))) c).
Definition index_mp (ix : omap ident container) : mp := MMap (map (fun kv => (ident_mp (fst kv), container_mp (snd kv))) (elems ix)).
Definition canon_bytes (m : memory) : list byte :=
  enc_mp (MArr [vertices_mp (m_vertices m); edges_mp (m_edges m); edges_mp (m_reversed m);
                vprops_mp (m_vprops m); eprops_mp (m_eprops m); index_mp (m_index m)]).

Lemma Forall2_map_r {A B} (R : A -> B -> Prop) (f : A -> B) l : (forall x, R x (f x)) -> Forall2 R l (map f l).
Proof. intros H. induction l; cbn; constructor; auto. Qed.

Lemma canon_image m : image m (canon_bytes m).
Proof.
  eexists. split; [|reflexivity]. constructor. econstructor; [apply Permutation_refl|].
  apply Forall2_map_r. intros [n c]. cbn [fst snd]. split; [reflexivity|].
  econstructor; [apply Permutation_refl|]. apply Forall2_map_r. intros [v ms]. cbn [fst snd]. split; [reflexivity|].
  constructor. apply Permutation_refl.
Qed.

(** Nothing goes wrong. *)
Definition fenv_ok : fenv := FEnv canon_bytes canon_image true 0 true 4000 true.
(** The disk is full, and the image fits in the write buffer. *)
Definition fenv_full : fenv := FEnv canon_bytes canon_image true 0 true 0 true.

Definition okb (d : nat) (v : json) : bool := raw_fits (jraw v) && (raw_depth (jraw v) <=? d)%nat.
Definition fitsb (d : nat) (m : memory) : bool :=
  ((size (m_vertices m) <? 2 ^ 32) && (size (m_edges m) <? 2 ^ 32) && (size (m_reversed m) <? 2 ^ 32) &&
   (size (m_vprops m) <? 2 ^ 32) && (size (m_eprops m) <? 2 ^ 32) && (size (m_index m) <? 2 ^ 32))%N &&
  forallb (fun kv => okb d (snd kv)) (elems (m_vprops m)) &&
  forallb (fun kv => okb d (snd kv)) (elems (m_eprops m)) &&
  forallb (fun kv => (lenN (snd kv) <? 2 ^ 32)%N && forallb (fun x => okb d (fst x) && (size (snd x) <? 2 ^ 32)%N) (snd kv))
          (elems (m_index m)).
Lemma okb_ok d v : okb d v = true -> raw_fits (jraw v) = true /\ (raw_depth (jraw v) <= d)%nat.
Proof. unfold okb. rewrite andb_true_iff, Nat.leb_le. auto. Qed.
Lemma fitsb_ok d m : fitsb d m = true -> fits d m.
Proof.
  unfold fitsb. rewrite !andb_true_iff, !N.ltb_lt, !forallb_forall.
  intros ((((((((A1 & A2) & A3) & A4) & A5) & A6) & V) & E) & I). split.
  - conj; assumption.
  - intros k v G. apply get_In in G. apply okb_ok. exact (V _ G).
  - intros k v G. apply get_In in G. apply okb_ok. exact (E _ G).
  - intros n c G. apply get_In in G. specialize (I _ G). cbn [snd] in I. apply andb_true_iff in I as [L I]. apply N.ltb_lt in L.
    split; [assumption|]. rewrite forallb_forall in I. intros v ms Hin. specialize (I _ Hin). cbn [fst snd] in I.
    apply andb_true_iff in I as [I S]. apply okb_ok in I as [I1 I2]. apply N.ltb_lt in S. auto.
Qed.

(** People with properties and an index: the hypotheses of [C24_mem_reopen_partial] hold. *)
Example C24_case : exists m, mem_run true (calls h_people) = Some m /\
  fits 1018 m /\ flushed fenv_ok m /\ fst (sync_disks fenv_ok m (Disk None None)) = Ok tt /\ size (m_vprops m) <> 0%N.
Proof.
  destruct (@run_with true (calls h_people) (fun m => fitsb 1018 m = true /\ (length (canon_bytes m) <=? 4000)%nat = true /\
    (size (m_vprops m) =? 0)%N = false)) as (m & R & F & L & Z).
  { vm_compute. auto. }
  exists m. conj; auto.
  - now apply fitsb_ok.
  - apply Nat.leb_le in L. exact L.
  - now apply N.eqb_neq.
Qed.

(** ** Refuted: without the condition on the flush

    [sync] does not flush its [BufWriter] before renaming; the flush on drop
    discards errors.  With a full disk, [sync] returns [Ok], the previous good
    image has been replaced by an empty file, and the database cannot be opened
    again: everything is lost. *)
Theorem C24_mem_silent_flush_refuted lim :
  exists evs rs s, p_trace (lim + 6) true p_new evs = (rs, s) /\
    nth 1 rs None = Some (Ok RUnit) /\  (* a good sync *)
    nth 3 rs None = Some (Ok RUnit) /\  (* the sync that loses everything *)
    p_up s = None.                       (* the restart fails *)
Proof.
  exists [PCall id_order (OCreateVertex v1) fenv_ok; PCall id_order OSync fenv_ok;
          PCall id_order (OCreateVertex v2) fenv_ok; PCall id_order OSync fenv_full; PRestart].
  do 2 eexists. split; [reflexivity|]. split; [reflexivity|]. split; [reflexivity|].
  rewrite Nat.add_comm. reflexivity.
Qed.
