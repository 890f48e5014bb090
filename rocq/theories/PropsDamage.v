(** * C58: damaged image files and power cuts (in-memory database with a path). *)
From Verif Require Import Base OMap Json Types Util UtilFacts Db Spec QueryFacts SpecFacts JsonFacts Mem MemFacts MemHist
  RdbSpec Stages Claims PropsMem PropsMemIndex Examples MsgPack Image MemSame Persist PropsPersist Damage.

Set Implicit Arguments.
Local Open Scope list_scope.

(** ** Image files *)

(** An image cut short anywhere is refused: it is never read as a smaller
    database. *)
Theorem C58_truncated_partial d m b k : fits d m -> image m b -> (k < length b)%nat -> p_open (d + 6) (Disk (Some (firstn k b)) None) = None.
Proof. intros F I L. unfold p_open. cbn [d_path]. now rewrite (truncated F I L). Qed.

(** Whatever follows an image in the file is ignored. *)
Theorem C58_trailing_partial lim b r m : read_image lim b = Some m -> read_image lim (b ++ r) = Some m.
Proof.
  unfold read_image. destruct (dec_mp lim b) as [[x s]|] eqn:E; [|discriminate]. cbn [obnd].
  now rewrite (@dec_mp_more _ _ r _ _ E).
Qed.

(** ** Sessions with calls, syncs, restarts, crashes and power cuts

    For every behaviour of the file system, including a flush that silently
    writes too little: when a process runs it holds exactly the calls the
    specification [returns] says, and answers everything from then on as a
    database that only ever ran those; otherwise no process runs, because the
    file is broken. *)
Theorem C58_sessions_partial d dbg evs rs s :
  x_fits d (d + 6) dbg True evs -> x_trace (d + 6) dbg x_new evs = (rs, s) ->
  exists old v live, returns True (combine evs rs) old v live /\
    match live with
    | None => p_up (x_p s) = None
    | Some l => exists st, p_up (x_p s) = Some st /\
        (forall later, fst (mem_trace dbg st later) = fst (mem_trace dbg (mem_run dbg l) later)) /\
        (forall m, st = Some m -> exists m0, mem_run dbg l = Some m0 /\ gof m = gof m0)
    end.
Proof.
  intros F E. destruct (x_sessions F E) as (old & v & live & R & [_ _ L]). exists old, v, live. split; [exact R|].
  destruct live as [l|]; [|exact L]. destruct L as (st & U & T). exists st. conj; [exact U|..].
  - intros later. symmetry. now apply trace_twins.
  - intros m ->. cbn in T. destruct (mem_run dbg l) as [m0|]; [|contradiction]. exists m0. split; [reflexivity|].
    symmetry. now apply twin_gof.
Qed.

(** *** The process always comes back if the power only fails when what was
    synced has been written to the disk *)

(** A file was renamed to the path after the last time everything was written
    to the disk. *)
Definition unwritten (evs : list (xevent * option (outcome res))) : bool :=
  fold_left (fun b x => match x with
                        | (XRun (PCall _ OSync _), Some (Ok _)) | (XRun (PCrash _ _), _) => true
                        | (XWriteback, _) | (XPower _ _, _) => false
                        | _ => b
                        end) evs false.
Definition calm (evs : list (xevent * option (outcome res))) : Prop :=
  forall evs1 i k r evs2, evs = evs1 ++ (XPower i k, r) :: evs2 -> unwritten evs1 = false.

Lemma unwritten_snoc evs x : unwritten (evs ++ [x]) =
  match x with
  | (XRun (PCall _ OSync _), Some (Ok _)) | (XRun (PCrash _ _), _) => true
  | (XWriteback, _) | (XPower _ _, _) => false
  | _ => unwritten evs
  end.
Proof. unfold unwritten. rewrite fold_left_app. reflexivity. Qed.
Lemma calm_front evs x : calm (evs ++ [x]) -> calm evs.
Proof. intros C e1 i k r e2 ->. apply (C e1 i k r (e2 ++ [x])). now rewrite <- app_assoc. Qed.

Lemma calm_returns evs old v live : returns False evs old v live -> calm evs ->
  v <> Broken /\ live <> None /\ Forall (fun w => w <> Broken) old /\ (unwritten evs = false -> old = []).
Proof.
  assert (forall v, v <> Broken -> start v <> None) as Up by (intros [|l|] H; [discriminate|discriminate|congruence]).
  induction 1 as [|evs old v l ord o f r R IH No|evs old v l ord f x R IH|evs old v l ord f x Sh R IH|evs old v l ord f r R IH Nr|
    evs old v ord o f R IH|evs old v live R IH|evs old v live f k R IH|evs old v l f k R IH|evs old v l f k Sh R IH|
    evs old v live R IH|evs old v live i k w R IH Hin|evs old v live i k R IH Nz]; intros C;
    try (pose proof (IH (@calm_front _ _ C)) as (I1 & I2 & I3 & I4)); rewrite ?unwritten_snoc.
  - conj; [discriminate|discriminate|constructor|reflexivity].
  - conj; [exact I1|discriminate|exact I3|]. intros Hu. apply I4. destruct o; congruence.
  - conj; [discriminate|discriminate| |discriminate]. apply Forall_app. split; [exact I3|]. constructor; [exact I1|constructor].
  - contradiction.
  - conj; [exact I1|exact I2|exact I3|]. intros Hu. apply I4. destruct r as [x|e|]; [now elim (Nr x)|exact Hu|exact Hu].
  - now elim I2.
  - conj; [exact I1|now apply Up|exact I3|exact I4].
  - conj; [exact I1|now apply Up|exact I3|discriminate].
  - conj; [discriminate|discriminate| |discriminate]. apply Forall_app. split; [exact I3|]. constructor; [exact I1|constructor].
  - contradiction.
  - conj; [exact I1|exact I2|constructor|reflexivity].
  - pose proof (C evs i k None [] eq_refl) as Hu. rewrite (I4 Hu) in Hin. destruct Hin as [<-|[]].
    conj; [exact I1|now apply Up|constructor|reflexivity].
  - pose proof (C evs i k None [] eq_refl) as Hu. now elim Nz; apply I4.
Qed.

Theorem C58_calm_partial d dbg evs rs s :
  x_fits d (d + 6) dbg False evs -> x_trace (d + 6) dbg x_new evs = (rs, s) -> calm (combine evs rs) ->
  exists old v l st, returns False (combine evs rs) old v (Some l) /\ p_up (x_p s) = Some st /\
    forall later, fst (mem_trace dbg st later) = fst (mem_trace dbg (mem_run dbg l) later).
Proof.
  intros F E C. destruct (x_sessions F E) as (old & v & live & R & [_ _ L]).
  destruct (calm_returns R C) as (_ & N & _). destruct live as [l|]; [|now elim N]. destruct L as (st & U & T).
  exists old, v, l, st. conj; auto. intros later. symmetry. now apply trace_twins.
Qed.

(** *** A sync that was written to the disk outlives any power cut *)

Lemma calls_keep_disk lim dbg cs : Forall (fun c => snd (fst c) <> OSync) cs -> forall s,
  p_disk (snd (p_trace lim dbg s (map (fun c => PCall (fst (fst c)) (snd (fst c)) (snd c)) cs))) = p_disk s.
Proof.
  induction 1 as [|[[ord o] f] cs No _ IH]; intros s; [reflexivity|]. cbn [map p_trace fst snd] in *.
  destruct (p_step lim dbg s (PCall ord o f)) as [r s'] eqn:E.
  assert (p_disk s' = p_disk s) as K.
  { cbn [p_step] in E. destruct (p_up s) as [st|]; [|now inversion E].
    destruct (mem_step dbg st (ord, o)) as [r1 st1] eqn:Es. destruct o, st; try (now elim No); inversion E; reflexivity. }
  specialize (IH s'). destruct (p_trace lim dbg s' _) as [rs s'']. cbn [snd] in *. congruence.
Qed.
Lemma calls_x lim dbg cs : Forall (fun c => snd (fst c) <> OSync) cs -> forall s,
  x_trace lim dbg s (map (fun c => XRun (PCall (fst (fst c)) (snd (fst c)) (snd c))) cs) =
    (let (rs, p) := p_trace lim dbg (x_p s) (map (fun c => PCall (fst (fst c)) (snd (fst c)) (snd c)) cs) in (rs, XState p (x_old s))).
Proof.
  induction 1 as [|[[ord o] f] cs No _ IH]; intros s; [destruct s; reflexivity|]. cbn [map x_trace p_trace fst snd] in *.
  cbn [x_step]. destruct (p_step lim dbg (x_p s) (PCall ord o f)) as [r s'] eqn:E.
  assert (swaps (x_p s) (PCall ord o f) = false) as -> by (cbn [swaps]; destruct o; try reflexivity; now elim No).
  rewrite IH. cbn [x_p x_old]. destruct (p_trace lim dbg s' _). reflexivity.
Qed.

Theorem C58_written_partial d dbg evs rs s ord f m cs i k rs' s' st :
  x_fits d (d + 6) dbg True evs -> x_trace (d + 6) dbg x_new evs = (rs, s) ->
  p_up (x_p s) = Some (Some m) -> fits d m -> flushed f m ->
  Forall (fun c => snd (fst c) <> OSync) cs ->
  x_trace (d + 6) dbg s ([XRun (PCall ord OSync f); XWriteback] ++
                         map (fun c => XRun (PCall (fst (fst c)) (snd (fst c)) (snd c))) cs ++ [XPower i k]) = (rs', s') ->
  nth 0 rs' None = Some (Ok RUnit) ->  (* the sync is acknowledged *)
  p_up (x_p s') = Some st ->
  forall later, fst (mem_trace dbg st later) = fst (mem_trace dbg (Some m) later).
Proof.
  intros F E U Fm Fl Fc E' A Us later.
  destruct (x_sessions F E) as (old & v & live & R & [_ _ L]). destruct live as [l|]; [|congruence].
  destruct L as (st0 & U0 & T). rewrite U in U0. inversion U0; subst st0. clear U0.
  cbn [app x_trace x_step] in E'. cbn [p_step] in E'. rewrite U in E'.
  destruct (fst (sync_disks f m (p_disk (x_p s)))) as [[]|er|] eqn:Sy; cbn [omapo] in E'.
  2: { destruct (x_trace (d + 6) dbg _ _) as [rs2 s2] in E'. inversion E'; subst. discriminate. }
  2: { destruct (x_trace (d + 6) dbg _ _) as [rs2 s2] in E'. inversion E'; subst. discriminate. }
  destruct (x_trace (d + 6) dbg _ _) as [rs2 s2] eqn:E2 in E'. inversion E'; subst rs' s2. clear E' A.
  cbn [x_p] in E2.
  pose proof (@calls_x (d + 6) dbg cs Fc (XState (PState (Some (Some m)) (sync_end f m (p_disk (x_p s)))) [])) as Cx.
  cbn [x_p x_old] in Cx. destruct (p_trace (d + 6) dbg _ _) as [rs3 p3] eqn:E3 in Cx.
  pose proof (@calls_keep_disk (d + 6) dbg cs Fc (PState (Some (Some m)) (sync_end f m (p_disk (x_p s))))) as K.
  rewrite E3 in K. cbn [snd p_disk] in K.
  erewrite x_trace_snoc in E2; [|exact Cx|reflexivity]. inversion E2; subst s'. clear E2.
  cbn [x_p p_up x_old power] in Us. rewrite K in Us.
  rewrite (sync_disks_end _ _ _ Sy), flushed_all in Us by exact Fl. cbn [d_path] in Us.
  assert (version_holds d dbg (Saved l) (Some (fe_bytes f m))) as V.
  { cbn in T. destruct (mem_run dbg l) as [m0|] eqn:R0; [|contradiction]. exists m0, m, (fe_bytes f m). conj; auto. apply fe_bytes_ok. }
  destruct (@version_opens d dbg (Saved l) _ None V) as (m1 & m0 & O & R0 & T1). rewrite O in Us. inversion Us; subst st.
  cbn in T. rewrite R0 in T.
  rewrite <- (proj1 (@trace_twins dbg later (Some m0) (Some m1) T1)), <- (proj1 (@trace_twins dbg later (Some m0) (Some m) T)). reflexivity.
Qed.

(** ** Refuted: a power cut soon after an acknowledged sync

    Nothing asks the operating system to write the new image to the disk before
    it replaces the old one.  A first vertex is synced, and written to the disk;
    a second vertex is synced; the power fails: the rename is on the disk, the
    contents are not.  The database cannot be opened again, and the first
    vertex is lost too. *)
Theorem C58_power_refuted lim :
  exists evs rs s, x_trace (lim + 6) true x_new evs = (rs, s) /\
    nth 1 rs None = Some (Ok RUnit) /\ nth 2 evs XWriteback = XWriteback /\
    nth 4 rs None = Some (Ok RUnit) /\
    p_up (x_p s) = None.
Proof.
  exists [XRun (PCall id_order (OCreateVertex v1) fenv_ok); XRun (PCall id_order OSync fenv_ok); XWriteback;
          XRun (PCall id_order (OCreateVertex v2) fenv_ok); XRun (PCall id_order OSync fenv_ok); XPower 1 0].
  do 2 eexists. split; [reflexivity|]. split; [reflexivity|]. split; [reflexivity|]. split; [reflexivity|].
  rewrite Nat.add_comm. reflexivity.
Qed.

(** ** Refuted: damage is not noticed

    The image has no checksum.  A vertex and an edge from it to another are
    synced, and one byte of the file is changed: the file is read, and the edge
    is now without its outbound vertex. *)
Definition h_edge : list op := [OCreateVertex v1; OCreateVertex v2; OCreateEdge e12].
Fixpoint flip (n : nat) (b : list byte) : list byte :=
  match n, b with
  | O, c :: r => byte_of (bN c + 1) :: r
  | S n, c :: r => c :: flip n r
  | _, [] => []
  end.
Definition edge_vertex_gone (m : memory) : bool := mem e12 (m_edges m) && negb (mem (vid v1) (m_vertices m)).
Theorem C58_damage_refuted : exists m b b' m', mem_run true (calls h_edge) = Some m /\ image m b /\
  b' = flip 4 b /\ length b' = length b /\
  p_open 1024 (Disk (Some b') None) = Some (Some m') /\
  mem e12 (m_edges m') = true /\ mem (eout e12) (m_vertices m') = false.
Proof.
  destruct (@run_with true (calls h_edge) (fun m =>
    match read_image 1024 (flip 4 (canon_bytes m)) with Some m' => edge_vertex_gone m' = true | None => False end /\
    (length (flip 4 (canon_bytes m)) =? length (canon_bytes m))%nat = true)) as (m & R & F & L).
  { vm_compute. auto. }
  destruct (read_image 1024 (flip 4 (canon_bytes m))) as [m'|] eqn:E; [|contradiction].
  exists m, (canon_bytes m), (flip 4 (canon_bytes m)), m'. apply Nat.eqb_eq in L. unfold edge_vertex_gone in F.
  apply andb_true_iff in F as [F1 F2]. apply negb_true_iff in F2.
  conj; auto; [apply canon_image|]. unfold p_open. cbn [d_path]. now rewrite E.
Qed.

(** Some file systems keep the length of a file whose contents were lost: the tail
    reads as zeros.  A file of zeros is refused.  A file whose last eight bytes are
    zeros is not: a vertex with an indexed property is synced, and after the power
    cut the query for the vertices with the property no longer finds it, although
    the vertex has it. *)
Theorem C58_zero_file lim n : p_open lim (Disk (Some (repeat x00 n)) None) = None.
Proof. unfold p_open. cbn [d_path]. destruct lim as [|lim], n as [|n]; reflexivity. Qed.

Definition h_index : list op := [OIndexProperty n_name; OCreateVertex v1; OSetProperties (QSpecificVertex [vid v1]) n_name j_bob].
Definition zero_tail (k : nat) (b : list byte) : list byte := firstn (length b - k) b ++ repeat x00 k.
Theorem C58_zeros_refuted : exists m b m', mem_run true (calls h_index) = Some m /\ image m b /\
  length (zero_tail 8 b) = length b /\
  p_open 1024 (Disk (Some (zero_tail 8 b)) None) = Some (Some m') /\
  db_get (mem_ops true id_order) m (QVertexWithPropertyPresence n_name) = Ok [Vertices [v1]] /\
  db_get (mem_ops true id_order) m' (QVertexWithPropertyPresence n_name) = Ok [Vertices []] /\
  db_get (mem_ops true id_order) m' (q_vprop (vid v1) n_name) = db_get (mem_ops true id_order) m (q_vprop (vid v1) n_name).
Proof.
  destruct (@run_with true (calls h_index) (fun m =>
    match read_image 1024 (zero_tail 8 (canon_bytes m)) with
    | Some m' =>
      db_get (mem_ops true id_order) m (QVertexWithPropertyPresence n_name) = Ok [Vertices [v1]] /\
      db_get (mem_ops true id_order) m' (QVertexWithPropertyPresence n_name) = Ok [Vertices []] /\
      db_get (mem_ops true id_order) m' (q_vprop (vid v1) n_name) = db_get (mem_ops true id_order) m (q_vprop (vid v1) n_name)
    | None => False end /\
    length (zero_tail 8 (canon_bytes m)) = length (canon_bytes m))) as (m & R & F & L).
  { vm_compute. auto. }
  destruct (read_image 1024 (zero_tail 8 (canon_bytes m))) as [m'|] eqn:E; [|contradiction].
  exists m, (canon_bytes m), m'. destruct F as (F1 & F2 & F3).
  conj; auto; [apply canon_image|]. unfold p_open. cbn [d_path]. now rewrite E.
Qed.

(** ** Cases *)

(** A session with a sync, a write-back, another sync and a power cut: the
    hypotheses hold, and the power cut brings back the first image. *)
Definition evs_power : list xevent :=
  [XRun (PCall id_order (OCreateVertex v1) fenv_ok); XRun (PCall id_order OSync fenv_ok); XWriteback;
   XRun (PCall id_order (OCreateVertex v2) fenv_ok); XRun (PCall id_order OSync fenv_ok); XPower 0 0].
Definition sync_fine (evs : list xevent) : bool :=
  match p_up (x_p (snd (x_trace 1024 true x_new evs))) with
  | Some (Some m) => fitsb 1018 m && (length (canon_bytes m) <=? 4000)%nat
  | _ => true
  end.
Lemma sync_fine_ok evs m (P : Prop) : sync_fine evs = true -> p_up (x_p (snd (x_trace 1024 true x_new evs))) = Some (Some m) ->
  fits 1018 m /\ (P \/ flushed fenv_ok m).
Proof.
  unfold sync_fine. intros H E. rewrite E in H. apply andb_true_iff in H as [H1 H2]. split; [now apply fitsb_ok|]. right. apply Nat.leb_le in H2. exact H2.
Qed.
Lemma evs_power_fits P : x_fits 1018 1024 true P evs_power.
Proof.
  intros evs1 e evs2 m E U. unfold evs_power in E.
  destruct evs1 as [|a1 evs1]; [inversion E; subst; exact I|]. inversion E as [[X1 E1]]; subst; clear E.
  destruct evs1 as [|a1 evs1]; [inversion E1; subst; eapply sync_fine_ok; [|exact U]; vm_compute; reflexivity|]. inversion E1 as [[X2 E2]]; subst; clear E1.
  destruct evs1 as [|a1 evs1]; [inversion E2; subst; exact I|]. inversion E2 as [[X3 E3]]; subst; clear E2.
  destruct evs1 as [|a1 evs1]; [inversion E3; subst; exact I|]. inversion E3 as [[X4 E4]]; subst; clear E3.
  destruct evs1 as [|a1 evs1]; [inversion E4; subst; eapply sync_fine_ok; [|exact U]; vm_compute; reflexivity|]. inversion E4 as [[X5 E5]]; subst; clear E4.
  destruct evs1 as [|a1 evs1]; [inversion E5; subst; exact I|]. inversion E5 as [[X6 E6]]. destruct evs1; discriminate.
Qed.
Example C58_case : exists rs s st m, x_fits 1018 1024 true True evs_power /\ x_trace 1024 true x_new evs_power = (rs, s) /\
  p_up (x_p s) = Some st /\ st = Some m /\ mem (vid v1) (m_vertices m) = true /\ mem (vid v2) (m_vertices m) = false.
Proof.
  pose proof (evs_power_fits True) as F.
  assert (match p_up (x_p (snd (x_trace 1024 true x_new evs_power))) with
          | Some (Some m) => mem (vid v1) (m_vertices m) && negb (mem (vid v2) (m_vertices m)) | _ => false end = true) as C by (vm_compute; reflexivity).
  destruct (x_trace 1024 true x_new evs_power) as [rs s] eqn:E. cbn [snd] in C.
  destruct (p_up (x_p s)) as [[m|]|] eqn:U; try discriminate. apply andb_true_iff in C as [C1 C2]. apply negb_true_iff in C2.
  exists rs, s, (Some m), m. conj; auto.
Qed.

(** The same with everything written to the disk before the power cut. *)
Definition evs_calm : list xevent :=
  [XRun (PCall id_order (OCreateVertex v1) fenv_ok); XRun (PCall id_order OSync fenv_ok); XWriteback; XPower 0 0].
Example C58_calm_case : exists rs s, x_trace 1024 true x_new evs_calm = (rs, s) /\ calm (combine evs_calm rs) /\
  unwritten (combine (firstn 2 evs_calm) rs) = true.
Proof.
  destruct (x_trace 1024 true x_new evs_calm) as [rs s] eqn:E. exists rs, s. split; [reflexivity|].
  assert (rs = [Some (Ok (RBoolean true)); Some (Ok RUnit); None; None]) as ->.
  { change rs with (fst (rs, s)). rewrite <- E. reflexivity. }
  split; [|reflexivity]. cbn [combine evs_calm]. intros evs1 i k r evs2 X.
  do 4 (destruct evs1 as [|? evs1]; [inversion X; subst; reflexivity|inversion X as [[X0 X1]]; subst; clear X; rename X1 into X]).
  destruct evs1; discriminate.
Qed.

(** The hypotheses of [C58_written_partial]. *)
Example C58_written_case : exists evs rs s m cs rs' s' st,
  x_fits 1018 1024 true True evs /\ x_trace 1024 true x_new evs = (rs, s) /\ p_up (x_p s) = Some (Some m) /\ fits 1018 m /\ flushed fenv_ok m /\
  Forall (fun c => snd (fst c) <> OSync) cs /\ cs <> [] /\
  x_trace 1024 true s ([XRun (PCall id_order OSync fenv_ok); XWriteback] ++
                       map (fun c => XRun (PCall (fst (fst c)) (snd (fst c)) (snd c))) cs ++ [XPower 3 0]) = (rs', s') /\
  nth 0 rs' None = Some (Ok RUnit) /\ p_up (x_p s') = Some st.
Proof.
  set (evs := [XRun (PCall id_order (OCreateVertex v1) fenv_ok)]).
  set (cs := [((id_order, OCreateVertex v2), fenv_ok)]).
  set (more := [XRun (PCall id_order OSync fenv_ok); XWriteback] ++ map (fun c => XRun (PCall (fst (fst c)) (snd (fst c)) (snd c))) cs ++ [XPower 3 0]).
  assert (sync_fine evs = true) as Sf by (vm_compute; reflexivity).
  assert (match p_up (x_p (snd (x_trace 1024 true x_new evs))) with Some (Some _) => true | _ => false end = true) as U by (vm_compute; reflexivity).
  assert (match x_trace 1024 true (snd (x_trace 1024 true x_new evs)) more with
          | (Some (Ok RUnit) :: _, s') => match p_up (x_p s') with Some _ => true | None => false end
          | _ => false end = true) as M by (vm_compute; reflexivity).
  assert (x_fits 1018 1024 true True evs) as F.
  { intros evs1 e evs2 m X _. destruct evs1 as [|? evs1]; inversion X; subst; [exact I|destruct evs1; discriminate]. }
  destruct (p_up (x_p (snd (x_trace 1024 true x_new evs)))) as [[m|]|] eqn:Eu; try discriminate.
  destruct (@sync_fine_ok evs m False Sf Eu) as [Fm [[]|Fl]].
  destruct (x_trace 1024 true x_new evs) as [rs s] eqn:E. cbn [snd] in *.
  destruct (x_trace 1024 true s more) as [rs' s'] eqn:E'. destruct rs' as [|[[[]| |]|] rs']; try discriminate.
  destruct (p_up (x_p s')) as [st|] eqn:Us; [|discriminate].
  eexists evs, rs, s, m, cs, _, s', st. conj; eauto; [|discriminate]. constructor; [discriminate|constructor].
Qed.
