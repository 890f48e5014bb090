(** * C59: what servers started one after the other on the same path serve. *)
From Coq Require Import String.
From Verif Require Import Base OMap Json Types Util Db Mem Rdb Spec QueryFacts MemFacts MemHist PropsMem PropsMemIndex Examples
  KeyFacts MsgPack Image MemSame Persist PropsPersist RdbCrash RdbGraph RdbRep RdbPut RdbRefine RdbHist PropsRdb PropsRdbIndex
  Proto ProtoFacts Server PropsProto Plugin PluginProg PropsServer Deploy PropsDeploy Conc Startup PropsStartup.

Set Implicit Arguments.
Local Open Scope list_scope.
Local Notation bytes := (list byte).
Local Notation session := PluginProg.session.

(** ** An in-memory server's image *)
Section Memory.
  Variable alnum : N -> bool.
  Variable enc : json -> bytes.
  Variable dec : bytes -> option json.
  Variable dbg : bool.
  Variable H : bytes -> N.
  Variable d : nat.
  Variable ours : version.
  Notation lim := (d + 6)%nat.
  Notation launch := (launch lim ours).
  Notation m_step := (m_step alnum enc dec dbg H lim ours).
  Notation m_trace := (m_trace alnum enc dec dbg H lim ours).

  Variable p : bytes.
  Variable codes : list (bytes * code).
  Notation msession := (session alnum enc dec (mem_step dbg) (mem_plugin dbg) codes (Some mem_empty)).
  Notation responses := (responses alnum enc dec codes dbg).

  (** What happened at the path [p] (Deploy.v's events, with the responses): the
      starts that led to a server with that path, the requests to such servers,
      and their being killed in a [sync]. *)
  Definition at_path (m : machine) (i : nat) : bool :=
    match mc_up m i with
    | Some s => match sv_store s with Mem _ (Some q) => if bytes_eq_dec q p then true else false | _ => false end
    | None => false
    end.
  Definition seen1 (m : machine) (x : mevent) (r : reply) : list (sevent * option (srv response)) :=
    match x, r with
    | Launch e c, RLaunched (Serving i) =>
      match m_sub c with SubMemory (Some q) => if bytes_eq_dec q p then [(Restart, None)] else [] | _ => [] end
    | ToServer i (ToMem a f), RAnswer (Some r) => if at_path m i then [(Ask a f, Some r)] else []
    | Kill i f k, _ => if at_path m i then [(Killed f k, None)] else []
    | _, _ => []
    end.
  Fixpoint seen (m : machine) (l : list mevent) : list (sevent * option (srv response)) :=
    match l with [] => [] | x :: l => let (r, m1) := m_step m x in seen1 m x r ++ seen m1 l end.

  (** The path is left to in-memory servers with the same plugins, one at a time,
      that can see whether the file exists; and every [sync] finds a database
      within the format's limits and gets its last bytes written (C24). *)
  Definition one_user (f : files) (evs : list mevent) : Prop :=
    forall evs1 x evs2, evs = evs1 ++ x :: evs2 ->
      let m1 := snd (m_trace (booted f) evs1) in
      match x with
      | Launch e c => (forall max r, m_sub c <> SubRocksdb p max r) /\
          (m_sub c = SubMemory (Some p) -> le_visible e p = true /\ (forall cs, has_plugins ours e (m_plugins c) cs -> cs = codes) /\ forall i, at_path m1 i = false)
      | ToServer i (ToMem a g) => forall s mm, mc_up m1 i = Some s -> sv_store s = Mem (Some mm) (Some p) -> a_req a = RqSync -> fits d mm /\ flushed g mm
      | Kill i g k => forall s mm, mc_up m1 i = Some s -> sv_store s = Mem (Some mm) (Some p) -> fits d mm /\ flushed g mm
      | _ => True
      end.

  Lemma seen_app m l1 l2 : seen m (l1 ++ l2) = seen m l1 ++ seen (snd (m_trace m l1)) l2.
  Proof.
    revert m. induction l1 as [|x l1 IH]; intros m; cbn [app seen Startup.m_trace snd]; [reflexivity|].
    destruct (m_step m x) as [r m1]. rewrite IH. destruct (m_trace m1 l1) as [rs m2]. cbn [snd]. now rewrite app_assoc.
  Qed.

  (** What is known after a history. *)
  Definition sound (m : machine) (l : list (sevent * option (srv response))) : Prop :=
    exists saved live, kept l saved live /\ saved_in alnum enc dec codes dbg d saved (Disk (f_image (mc_files m) p) None) /\
      f_dir (mc_files m) p = None /\
      (forall i s st, mc_up m i = Some s -> sv_store s = Mem st (Some p) -> sv_codes s = codes /\ twin_db (msession live) st) /\
      (forall i j, at_path m i = true -> at_path m j = true -> i = j).

  Lemma at_path_spec m i : at_path m i = true <-> exists s st, mc_up m i = Some s /\ sv_store s = Mem st (Some p).
  Proof.
    unfold at_path. destruct (mc_up m i) as [s|]; [|split; [discriminate|intros (? & ? & X & _); discriminate]].
    destruct (sv_store s) as [st [q|]|rs q] eqn:Ss.
    - destruct (bytes_eq_dec q p) as [->|N].
      + split; [intros _; eauto|auto].
      + split; [discriminate|]. intros (s0 & st0 & X & Y). inversion X; subst. rewrite Y in Ss. inversion Ss; subst. now elim N.
    - split; [discriminate|]. intros (s0 & st0 & X & Y). inversion X; subst. congruence.
    - split; [discriminate|]. intros (s0 & st0 & X & Y). inversion X; subst. congruence.
  Qed.

  Lemma stop_sound m i saved live l : kept l saved live -> saved_in alnum enc dec codes dbg d saved (Disk (f_image (mc_files m) p) None) ->
      f_dir (mc_files m) p = None ->
      (forall i s st, mc_up m i = Some s -> sv_store s = Mem st (Some p) -> sv_codes s = codes /\ twin_db (msession live) st) ->
      (forall i j, at_path m i = true -> at_path m j = true -> i = j) -> sound (stop m i) l.
  Proof.
    intros K F D U Q. exists saved, live. cbn [stop mc_files]. conj; auto.
    - intros j s st. cbn. unfold upd. destruct (Nat.eqb_spec j i); [discriminate|]. apply U.
    - intros j k Hj Hk. apply Q; [revert Hj|revert Hk]; unfold at_path; cbn; unfold upd; [destruct (Nat.eqb_spec j i)|destruct (Nat.eqb_spec k i)]; auto; discriminate.
  Qed.

  Definition rocks_free (m : machine) : Prop := forall i s st, mc_up m i = Some s -> sv_store s <> Rocks st p.
  Lemma rocks_free_step m x : rocks_free m -> (forall e c, x = Launch e c -> forall max r, m_sub c <> SubRocksdb p max r) -> rocks_free (snd (m_step m x)).
  Proof.
    intros R L. assert (forall m1 i, mc_up m1 = upd (mc_up m) i None -> rocks_free m1) as Gone.
    { intros m1 i E j s st. rewrite E. unfold upd. destruct (Nat.eqb_spec j i); [discriminate|]. apply R. }
    destruct x as [e c|i q|i|i g k]; cbn [Startup.m_step].
    - destruct (launch m e c) as [l m'] eqn:E. cbn [snd]. specialize (L e c eq_refl). destruct l as [i| |].
      2,3: destruct (@C59_not_started lim ours m e c _ m' E ltac:(discriminate)) as (Up & _); intros i s st; rewrite Up; apply R.
      apply C59_started in E as (a & addr & rest & st & cs & fs & _ & _ & _ & _ & Sv & _ & -> & ->). intros j s st1. cbn. unfold upd.
      destruct (Nat.eqb_spec j (mc_next m)); [|apply R]. intros X Y. inversion X; subst. cbn in Y. subst st. unfold serves in Sv.
      destruct (m_sub c) as [|[q|]|q max rep].
      + destruct Sv; discriminate.
      + destruct Sv as (? & ? & _); discriminate.
      + destruct Sv; discriminate.
      + destruct Sv as (_ & _ & _ & s0 & ds & _ & X2 & _). inversion X2; subst. now elim (L max rep).
    - destruct (Startup.ask alnum enc dec dbg H m i q) as [r1 m1] eqn:Ea. cbn [snd]. apply ask_up in Ea as [_ Up].
      intros j s st Uj Sj. specialize (Up j). rewrite Uj in Up. destruct (mc_up m j) as [s0|] eqn:U0; [|contradiction].
      destruct Up as (_ & P & _). rewrite Sj in P. destruct (sv_store s0) as [|st0 q0] eqn:S0; [discriminate|]. cbn in P. inversion P; subst. now apply (R j s0 st0).
    - now apply (Gone _ i).
    - apply (Gone _ i). apply kill_up.
  Qed.

  Lemma sound_step m x r m' l : sound m l -> rocks_free m -> m_step m x = (r, m') ->
    match x with
    | Launch e c => (forall max r, m_sub c <> SubRocksdb p max r) /\
        (m_sub c = SubMemory (Some p) -> le_visible e p = true /\ (forall cs, has_plugins ours e (m_plugins c) cs -> cs = codes) /\ forall i, at_path m i = false)
    | ToServer i (ToMem a g) => forall s mm, mc_up m i = Some s -> sv_store s = Mem (Some mm) (Some p) -> a_req a = RqSync -> fits d mm /\ flushed g mm
    | Kill i g k => forall s mm, mc_up m i = Some s -> sv_store s = Mem (Some mm) (Some p) -> fits d mm /\ flushed g mm
    | _ => True
    end -> sound m' (l ++ seen1 m x r).
  Proof.
    intros (saved & live & K & F & D & U & Q) RF E C. destruct x as [e c|i q|i|i g k]; cbn [Startup.m_step] in E.
    - destruct C as [NR NM]. destruct (launch m e c) as [la m1] eqn:El. inversion E; subst r m1. clear E. destruct la as [i| |].
      2,3: destruct (@C59_not_started lim ours m e c _ m' El ltac:(discriminate)) as (Up & Nx & Im & Dr & _); cbn [seen1]; rewrite app_nil_r;
           exists saved, live; rewrite Im, (Dr p NR); conj; auto; [rewrite Up; auto|intros i j; unfold at_path; rewrite Up; apply Q].
      apply C59_started in El as (a & addr & rest & st & cs & fs & _ & _ & _ & _ & Sv & Hp & -> & ->). cbn [seen1].
      assert (forall q, m_sub c = SubMemory q -> fs = mc_files m /\ exists st0, st = Mem st0 q) as MemCase.
      { intros q Eq. unfold serves in Sv. rewrite Eq in Sv. destruct q as [q|]; [destruct Sv as (st0 & -> & -> & _)|destruct Sv as [-> ->]]; eauto. }
      assert ((exists st0, m_sub c = SubMemory (Some p) /\ st = Mem st0 (Some p)) \/
              ((forall st0, st <> Mem st0 (Some p)) /\ f_image fs = f_image (mc_files m) /\ f_dir fs p = f_dir (mc_files m) p /\
               match m_sub c with SubMemory (Some q) => if bytes_eq_dec q p then [(Restart, @None (srv response))] else [] | _ => [] end = [])) as [(st0 & Sc & ->)|(N & Fi & Fd & ->)].
      { unfold serves in Sv. destruct (m_sub c) as [|[q|]|q max rep] eqn:Sc.
        - right. destruct Sv as [-> ->]. conj; auto. discriminate.
        - destruct Sv as (st0 & -> & -> & _). destruct (bytes_eq_dec q p) as [->|Nq]; [left; eauto|]. right. conj; auto. intros st1 X. inversion X. now elim Nq.
        - right. destruct Sv as [-> ->]. conj; auto. discriminate.
        - right. destruct Sv as (_ & _ & _ & s0 & ds & _ & -> & ->). cbn. conj; auto; [discriminate|]. unfold set. destruct (bytes_eq_dec p q) as [->|]; [|reflexivity]. now elim (NR max rep). }
      + rewrite Sc. destruct (bytes_eq_dec p p) as [_|X]; [|now elim X]. destruct (NM Sc) as (Vi & Cs & No).
        destruct (MemCase _ Sc) as [-> _]. unfold serves in Sv. rewrite Sc, Vi in Sv. destruct Sv as (st1 & X & _ & Sv). inversion X; subst st1. clear X.
        exists saved, (back_to saved). cbn [mc_files]. conj; auto.
        * eapply kp_restart; eauto.
        * intros j s st. cbn. unfold upd. destruct (Nat.eqb_spec j (mc_next m)) as [->|Nj].
          -- intros X Y. inversion X; subst. cbn in Y. inversion Y; subst. cbn [sv_codes]. split; [now apply Cs|].
             destruct (saved_opens alnum enc dec codes dbg d saved _ F) as (mm & O & m0 & R & T). unfold p_open in O. cbn [d_path] in O. rewrite R.
             destruct (f_image (mc_files m) p) as [b|].
             ++ destruct Sv as (_ & x & Er & ->). rewrite Er in O. cbn in O. inversion O; subst. exact T.
             ++ destruct Sv as (_ & ->). inversion O; subst. exact T.
          -- intros X Y. specialize (No j). rewrite (proj2 (at_path_spec m j)) in No by eauto. discriminate.
        * intros j k Hj Hk. apply at_path_spec in Hj as (s & st & Hj & Sj), Hk as (t & st' & Hk & Sk). cbn in Hj, Hk. unfold upd in Hj, Hk.
          destruct (Nat.eqb_spec j (mc_next m)) as [->|Nj]; [|specialize (No j); rewrite (proj2 (at_path_spec m j)) in No by eauto; discriminate].
          destruct (Nat.eqb_spec k (mc_next m)) as [->|Nk]; [|specialize (No k); rewrite (proj2 (at_path_spec m k)) in No by eauto; discriminate]. reflexivity.
      + rewrite app_nil_r. exists saved, live. cbn [mc_files]. rewrite Fi, Fd. conj; auto.
        * intros j s st1. cbn. unfold upd. destruct (Nat.eqb_spec j (mc_next m)); [|apply U]. intros X Y. inversion X; subst. cbn in Y. now elim (N st1).
        * assert (forall j, at_path {| mc_files := fs; mc_up := upd (mc_up m) (mc_next m) (Some (Srv addr st cs)); mc_next := S (mc_next m) |} j = true -> at_path m j = true) as Ap.
          { intros j. rewrite !at_path_spec. cbn. unfold upd. destruct (Nat.eqb_spec j (mc_next m)); [|auto]. intros (s & st1 & X & Y). inversion X; subst. cbn in Y. now elim (N st1). }
          intros j k Hj Hk. apply Q; auto.
    - destruct (Startup.ask alnum enc dec dbg H m i q) as [r1 m1] eqn:Ea. inversion E; subst r m1. clear E.
      pose proof (@ask_up alnum enc dec dbg H m i q r1 m' Ea) as [_ Up].
      assert (forall j, at_path m' j = at_path m j) as Ap.
      { intros j. specialize (Up j). unfold at_path. destruct (mc_up m j) as [s|], (mc_up m' j) as [s'|]; try contradiction; [|reflexivity].
        destruct Up as (_ & P & _). destruct (sv_store s) as [? ?|], (sv_store s') as [? ?|]; cbn in P; inversion P; reflexivity. }
      assert (forall i j, at_path m' i = true -> at_path m' j = true -> i = j) as Q' by (intros i0 j; rewrite !Ap; apply Q).
      destruct (at_path m i) eqn:Pi.
      + apply at_path_spec in Pi as (s & st & Ui & Ss). unfold Startup.ask in Ea. rewrite Ui, Ss in Ea.
        destruct q as [a g|a].
        2:{ inversion Ea; subst. cbn [seen1]. rewrite app_nil_r. exists saved, live. auto. }
        rewrite D in Ea. destruct (U _ _ _ Ui Ss) as [Ec T]. rewrite Ec in Ea.
        destruct (handle alnum enc dec (path_step dbg g) (path_plugin dbg) codes (st, Disk (f_image (mc_files m) p) None) a) as [r2 x] eqn:Hd.
        inversion Ea; subst. clear Ea. cbn [seen1]. rewrite (proj2 (at_path_spec m i)) by eauto.
        assert (forall live', twin_db (msession live') (fst x) -> forall j s0 st0, upd (mc_up m) i (Some (Srv (sv_addr s) (Mem (fst x) (Some p)) codes)) j = Some s0 ->
            sv_store s0 = Mem st0 (Some p) -> sv_codes s0 = codes /\ twin_db (msession live') st0) as U'.
        { intros live' T' j s0 st0. unfold upd. destruct (Nat.eqb_spec j i) as [->|Nj].
          - intros X Y. inversion X; subst. cbn in *. inversion Y; subst. auto.
          - intros X Y. elim Nj. apply Q; apply at_path_spec; eauto. }
        assert (forall p0, set (f_image (mc_files m)) p p0 p = p0) as Se by (intros p0; unfold set; now destruct (bytes_eq_dec p p)).
        assert (holds alnum enc dec codes dbg d saved live (PState (Some st) (Disk (f_image (mc_files m) p) None))) as HH by (split; [exact F|exists st; auto]).
        assert (s_step alnum enc dec codes dbg lim (PState (Some st) (Disk (f_image (mc_files m) p) None)) (Ask a g) = (Some r2, PState (Some (fst x)) (snd x))) as Es.
        { cbn [s_step p_up p_disk]. now rewrite Hd. }
        assert (forall saved' live', holds alnum enc dec codes dbg d saved' live' (PState (Some (fst x)) (snd x)) -> kept (l ++ [(Ask a g, Some r2)]) saved' live' ->
          sound (Machine (Files (set (f_image (mc_files m)) p (d_path (snd x))) (f_dir (mc_files m))) (upd (mc_up m) i (Some (Srv (sv_addr s) (Mem (fst x) (Some p)) codes))) (mc_next m))
            (l ++ [(Ask a g, Some r2)])) as Close.
        { intros saved' live' [F' (st' & X & T')] K'. cbn in X. inversion X; subst st'. exists saved', live'. cbn [mc_files f_image f_dir mc_up]. rewrite Se.
          split; [exact K'|]. split; [eapply saved_path; [|exact F']; reflexivity|]. split; [exact D|]. split; [now apply U'|exact Q']. }
        assert (a_req a = RqSync \/ a_req a <> RqSync) as [Rq|Rq] by (destruct (a_req a); ((left; reflexivity) || (right; discriminate))).
        * assert (forall mm, p_up (PState (Some st) (Disk (f_image (mc_files m) p) None)) = Some (Some mm) -> fits d mm /\ flushed g mm) as Fe.
          { intros mm X. cbn in X. inversion X; subst. eapply C; eauto. }
          destruct (holds_sync a HH Rq Fe Es) as [[X H']|(er & X & H')]; inversion X; subst.
          -- eapply Close; [exact H'|]. eapply kp_sync; eauto.
          -- eapply Close; [exact H'|]. eapply kp_sync_failed; eauto.
        * destruct (holds_request a g HH Rq Es) as [H' _]. eapply Close; [exact H'|]. now apply kp_request.
      + assert (seen1 m (ToServer i q) (RAnswer r1) = []) as ->.
        { cbn [seen1]. destruct q; [|reflexivity]. rewrite Pi. now destruct r1. }
        rewrite app_nil_r.
        pose proof (@C59_locality alnum enc dec dbg H lim ours m (ToServer i q) p) as [L1 L2]. cbn [Startup.m_step] in L1, L2. rewrite Ea in L1, L2. cbn [snd] in L1, L2.
        assert (f_image (mc_files m') p = f_image (mc_files m) p) as Fi.
        { destruct (f_image (mc_files m') p) as [b1|], (f_image (mc_files m) p) as [b2|]; try reflexivity;
          (destruct (list_eq_dec Byte.byte_eq_dec (match Some b1 with Some x => x | None => [] end) b2) as [->|Nb] || idtac); try reflexivity;
          (exfalso; destruct L1 as (i0 & s & st & U0 & S0 & [(a & g & X & _)|(g & k & X)]); [congruence|inversion X; subst; rewrite (proj2 (at_path_spec m i0)) in Pi by eauto; discriminate|discriminate]). }
        assert (f_dir (mc_files m') p = None) as Fd.
        { rewrite <- D. destruct (f_dir (mc_files m') p) as [r|] eqn:Er; [|now rewrite D]. exfalso.
          destruct L2 as [(i0 & s & st & a & X & U0 & S0)|(e & c & max & r0 & X & _)]; [rewrite D; discriminate| |discriminate].
          now apply (RF i0 s st). }
        exists saved, live. rewrite Fi. conj; auto.
        intros j s' st Uj Sj. pose proof (Up j) as V. rewrite Uj in V. destruct (mc_up m j) as [s|] eqn:Um; [|contradiction].
        destruct V as (_ & _ & _ & V). assert (j <> i) as Nj. { intros ->. rewrite <- Ap in Pi. rewrite (proj2 (at_path_spec m' i)) in Pi by eauto. discriminate. }
        rewrite (V Nj) in *. eapply U; eauto.
    - inversion E; subst. cbn [seen1]. rewrite app_nil_r. eapply stop_sound; eauto.
    - inversion E; subst. cbn [seen1]. destruct (at_path m i) eqn:Pi.
      + apply at_path_spec in Pi as (s & st & Ui & Ss). destruct (U _ _ _ Ui Ss) as [Ec T]. unfold kill. rewrite Ui, Ss, D.
        assert (holds alnum enc dec codes dbg d saved live (PState (Some st) (Disk (f_image (mc_files m) p) None))) as HH by (split; [exact F|exists st; auto]).
        assert (forall mm, p_up (PState (Some st) (Disk (f_image (mc_files m) p) None)) = Some (Some mm) -> fits d mm /\ flushed g mm) as Fe.
        { intros mm X. cbn in X. inversion X; subst. eapply C; eauto. }
        pose proof (holds_killed (f := g) k HH Fe) as X. cbn [s_step p_up p_disk snd] in X.
        assert (forall j s0 st0, mc_up m j = Some s0 -> sv_store s0 = Mem st0 (Some p) -> j = i) as Only by (intros; apply Q; apply at_path_spec; eauto).
        assert (forall m0 saved' live', (forall j, mc_up m0 j = upd (mc_up m) i None j) -> f_dir (mc_files m0) p = None ->
          saved_in alnum enc dec codes dbg d saved' (Disk (f_image (mc_files m0) p) None) -> kept (l ++ [(Killed g k, None)]) saved' live' -> sound m0 (l ++ [(Killed g k, None)])) as Close.
        { intros m0 saved' live' Um D0 F0 K0.
          assert (forall j s0 st0, mc_up m0 j = Some s0 -> sv_store s0 = Mem st0 (Some p) -> False) as None0.
          { intros j s0 st0. rewrite Um. unfold upd. destruct (Nat.eqb_spec j i); [discriminate|]. intros A B. specialize (Only _ _ _ A B). congruence. }
          exists saved', live'. conj; auto.
          - intros j s0 st0 A B. elim (None0 j s0 st0 A B).
          - intros j j2 A. apply at_path_spec in A as (s0 & st0 & A & B). elim (None0 j s0 st0 A B). }
        assert (forall b, set (f_image (mc_files m)) p b p = b) as Se by (intros b; unfold set; now destruct (bytes_eq_dec p p)).
        destruct st as [mm|].
        * set (dk := nth k (snd (sync_disks g mm (Disk (f_image (mc_files m) p) None))) (sync_end g mm (Disk (f_image (mc_files m) p) None))) in *.
          destruct X as [[X _]|[X _]]; cbn [p_disk] in X.
          -- eapply Close; [reflexivity|exact D| |eapply kp_killed_before; eauto]. cbn [mc_files stop f_image]. rewrite Se. eapply saved_path; [|exact X]. reflexivity.
          -- eapply Close; [reflexivity|exact D| |eapply kp_killed_after; eauto]. cbn [mc_files stop f_image]. rewrite Se. eapply saved_path; [|exact X]. reflexivity.
        * destruct X as [[X _]|[X _]]; cbn [p_disk] in X.
          -- eapply Close; [reflexivity|exact D| |eapply kp_killed_before; eauto]. exact X.
          -- eapply Close; [reflexivity|exact D| |eapply kp_killed_after; eauto]. exact X.
      + rewrite app_nil_r. unfold kill. destruct (mc_up m i) as [s|] eqn:Ui; [|eapply stop_sound; eauto].
        destruct (sv_store s) as [[mm|] [p0|]|] eqn:Ss; try (eapply stop_sound; eauto; fail).
        assert (p <> p0) as Np. { intros Ep. subst p0. assert (at_path m i = true) as X by (apply at_path_spec; eauto). congruence. }
        eapply stop_sound; eauto. cbn. unfold set. destruct (bytes_eq_dec p p0); [contradiction|]. exact F.
  Qed.

  Lemma sound_history f evs : f_image f p = None -> f_dir f p = None -> one_user f evs -> sound (snd (m_trace (booted f) evs)) (seen (booted f) evs) /\ rocks_free (snd (m_trace (booted f) evs)).
  Proof.
    intros F1 F2. induction evs as [|x evs IH] using rev_ind; intros O.
    - split; [|intros i s st; discriminate]. exists None, []. cbn. conj; auto; [constructor|discriminate|discriminate].
    - rewrite seen_app, m_trace_app.
      assert (one_user f evs) as O' by (intros e1 y e2 ->; apply (O e1 y (e2 ++ [x])); now rewrite <- app_assoc).
      destruct (IH O') as [IH1 IH2]. clear IH. pose proof (O evs x [] eq_refl) as Ox. cbn zeta in Ox.
      destruct (m_trace (booted f) evs) as [rs m]. cbn [snd] in *. cbn [seen Startup.m_trace]. destruct (m_step m x) as [r m1] eqn:E. cbn [snd]. rewrite app_nil_r.
      split; [eapply sound_step; eauto|]. pose proof (@rocks_free_step m x IH2) as RS. rewrite E in RS. cbn [snd] in RS. apply RS.
      intros e c -> max r0. apply Ox.
  Qed.

  (** Whatever else runs on the machine: a server at the path answers every later
      conversation as one that only ever was asked the requests that were kept. *)
  Theorem C59_memory_deployment_partial f evs : f_image f p = None -> f_dir f p = None -> one_user f evs ->
    let m := snd (m_trace (booted f) evs) in
    exists saved live, kept (seen (booted f) evs) saved live /\
      forall i s st, mc_up m i = Some s -> sv_store s = Mem st (Some p) -> sv_codes s = codes /\ forall later, responses st later = responses (msession live) later.
  Proof.
    intros F1 F2 O m. destruct (sound_history F1 F2 O) as [(saved & live & K & _ & _ & U & _) _]. exists saved, live. split; [exact K|].
    intros i s st Ui Ss. destruct (U _ _ _ Ui Ss) as [Ec T]. split; [exact Ec|]. intros later. symmetry. now apply responses_twins.
  Qed.
  (** And such a server can always be started (again), if nothing outside hinders:
      whatever the servers before it did, the file can be read. *)
  Theorem C59_memory_restart_partial f evs e c a addr rest cs : f_image f p = None -> f_dir f p = None -> one_user f evs ->
    let m := snd (m_trace (booted f) evs) in
    m_sub c = SubMemory (Some p) -> parse_cli_args c = Args a -> le_resolve e (ca_addr a) = Some (addr :: rest) ->
    le_free e addr = true -> ~ listening m addr -> le_visible e p = true -> le_readable e p = true -> has_plugins ours e (m_plugins c) cs ->
    exists i m', launch m e c = (Serving i, m').
  Proof.
    intros F1 F2 O m Sc Pa Re Fr Nl Vi Rd Hp. destruct (sound_history F1 F2 O) as [(saved & live & _ & F & D & _) _]. fold m in F, D.
    destruct (apart_history alnum enc dec dbg H lim ours f evs) as [Nu _]. fold m in Nu.
    destruct (saved_opens alnum enc dec codes dbg d saved _ F) as (mm & Op & _). unfold p_open in Op. cbn [d_path] in Op.
    assert (listeningb m addr = false) as Lb. { destruct (listeningb m addr) eqn:X; [|reflexivity]. apply (proj1 (@listeningb_spec alnum dec H m addr Nu)) in X. contradiction. }
    eexists _, _. apply C59_started. exists a, addr, rest, (Mem (Some mm) (Some p)), cs, (mc_files m). conj; auto.
    rewrite Sc. cbn [serves]. exists (Some mm). rewrite Vi. conj; auto. destruct (f_image (mc_files m) p) as [b|].
    - split; [exact Rd|]. destruct (read_image lim b) as [x|]; [|discriminate]. cbn in Op. inversion Op; subst. eauto.
    - split; [exact D|]. now inversion Op.
  Qed.
End Memory.

(** ** A RocksDB server's directory *)
Local Notation same := RdbCrash.same.
Section Rocks.
  Variable alnum : N -> bool.
  Variable enc : json -> bytes.
  Variable dec : bytes -> option json.
  Variable dbg : bool.
  Variable H : bytes -> N.
  Variable lim : nat.
  Variable ours : version.
  Notation launch := (launch lim ours).
  Notation m_step := (m_step alnum enc dec dbg H lim ours).
  Notation m_trace := (m_trace alnum enc dec dbg H lim ours).
  Variable codes : list (bytes * code).
  Notation rhandle := (handle alnum enc dec (rdb_step H enc dec) (rdb_plugin H enc dec) codes).
  Notation rsession := (session alnum enc dec (rdb_step H enc dec) (rdb_plugin H enc dec) codes rdb_empty).

  (** Two databases with the same contents and indexed names answer alike. *)
  Lemma rread_same env s t {B} (c : rcall B) : same s t -> read_call (rdb_ops H enc dec env) s c = read_call (rdb_ops H enc dec env) t c.
  Proof. destruct s as [x ix l], t as [x' ix' l']. intros [E1 E2]. cbn in E1, E2. subst. destruct c; reflexivity. Qed.
  Lemma rwrite_same env s t {B} (c : wcall B) : same s t ->
    fst (write_call (rdb_ops H enc dec env) s c) = fst (write_call (rdb_ops H enc dec env) t c) /\
    same (snd (write_call (rdb_ops H enc dec env) s c)) (snd (write_call (rdb_ops H enc dec env) t c)).
  Proof.
    intros Sm. destruct (@exec_same H enc dec env s t (op_of c) Sm) as [E1 E2].
    destruct (write_exec (rdb_ops H enc dec env) s c) as [W1 _]. destruct (write_exec (rdb_ops H enc dec env) t c) as [W2 _].
    rewrite <- W1, <- W2. split; [|exact E2]. clear - E1.
    destruct c; cbn [op_of exec write_call] in *; unfold resw in E1; cbn [fst] in E1;
      match type of E1 with omapo _ ?x = omapo _ ?y => destruct x, y; cbn in E1; inversion E1; subst; repeat match goal with u : unit |- _ => destruct u end; reflexivity end.
  Qed.
  Lemma rrun_same envs {A} (p : prog A) : forall i s t, same s t ->
    fst (run_prog (rdb_ops H enc dec) envs i p s) = fst (run_prog (rdb_ops H enc dec) envs i p t) /\
    same (snd (run_prog (rdb_ops H enc dec) envs i p s)) (snd (run_prog (rdb_ops H enc dec) envs i p t)).
  Proof.
    induction p as [r|B c k IH|B c k IH]; intros i a b T; cbn [run_prog]; [split; auto|..].
    - rewrite (rread_same (envs i) c T). destruct (read_call (rdb_ops H enc dec (envs i)) b c); auto.
    - destruct (rwrite_same (envs i) c T) as [E T']. destruct (write_call (rdb_ops H enc dec (envs i)) a c) as [r a'], (write_call (rdb_ops H enc dec (envs i)) b c) as [r' b'].
      cbn [fst snd] in E, T'. subst r'. destruct r; auto.
  Qed.
  Lemma rhandle_same s t a : same s t -> fst (rhandle s a) = fst (rhandle t a) /\ same (snd (rhandle s a)) (snd (rhandle t a)).
  Proof.
    intros T. unfold handle. destruct a as [env fresh envs rq]. cbn [a_env a_fresh a_envs a_req].
    assert (forall o, fst (rdb_step H enc dec s (env, o)) = fst (rdb_step H enc dec t (env, o)) /\
              same (snd (rdb_step H enc dec s (env, o))) (snd (rdb_step H enc dec t (env, o)))) as St by (intros o; now apply exec_same).
    assert (forall o k, fst (blocking (rdb_step H enc dec) s env o k) = fst (blocking (rdb_step H enc dec) t env o k) /\
                        same (snd (blocking (rdb_step H enc dec) s env o k)) (snd (blocking (rdb_step H enc dec) t env o k))) as B.
    { intros o k. unfold blocking. destruct (St o) as [E T'].
      destruct (rdb_step H enc dec s (env, o)) as [r a'], (rdb_step H enc dec t (env, o)) as [r' b']. cbn [fst snd] in *. subst r'. destruct r; auto. }
    destruct rq; cbn [serve]; auto.
    - destruct (of_vertex alnum v); cbn [converted]; auto.
    - destruct (of_ident alnum t0); cbn [converted]; auto.
    - destruct (of_edge alnum e); cbn [converted]; auto.
    - destruct (of_query alnum dec q) as [q'|]; cbn [converted]; auto. destruct (St (OGet q')) as [E T'].
      destruct (rdb_step H enc dec s (env, OGet q')) as [r a'], (rdb_step H enc dec t (env, OGet q')) as [r' b']. cbn [fst snd] in *. subst r'. auto.
    - destruct (of_query alnum dec q); cbn [converted]; auto.
    - destruct (of_set_req alnum dec r) as [[[q n] v]|]; cbn [converted]; auto.
    - destruct (read_stream alnum dec items); auto.
    - destruct (of_index_req alnum r); cbn [converted]; auto.
    - destruct (match arg with Some a => of_json dec a | None => COk jnull end) as [v|]; cbn [converted]; auto.
      unfold hosted. induction codes as [|[n c] r IH]; cbn [map find_plugin fst snd]; auto.
      destruct (list_eq_dec Byte.byte_eq_dec name n); [|exact IH].
      unfold rdb_plugin. destruct (rrun_same envs (c v) 0 T) as [E T'].
      destruct (run_prog (rdb_ops H enc dec) envs 0 (c v) s) as [x a'], (run_prog (rdb_ops H enc dec) envs 0 (c v) t) as [x' b']. cbn [fst snd] in *. subst x'. destruct x; auto.
  Qed.
  Fixpoint rresponses (s : rstate) (l : list (asked renv)) : list (srv response) :=
    match l with [] => [] | a :: l => let (r, s') := rhandle s a in r :: rresponses s' l end.
  Lemma rresponses_same l : forall s t, same s t -> rresponses s l = rresponses t l.
  Proof.
    induction l as [|x l IH]; intros a b T; cbn [rresponses]; [reflexivity|]. destruct (rhandle_same x T) as [E T'].
    destruct (rhandle a x) as [r a'], (rhandle b x) as [r' b']. cbn [fst snd] in *. subst r'. f_equal. auto.
  Qed.

  (** The calls a request makes, with their environments. *)
  Lemma prog_envs {A} envs (p : prog A) : forall i s, exists l,
    snd (run_prog (rdb_ops H enc dec) envs i p s) = run_from H enc dec s l /\ (forall x, In x l -> may_write p (snd x) /\ exists k, fst x = envs k).
  Proof.
    induction p as [r0|B c k IH|B c k IH]; intros i s; cbn [run_prog].
    - exists []. split; [reflexivity|intros x []].
    - destruct (read_call (rdb_ops H enc dec (envs i)) s c) as [b|e|].
      + destruct (IH (ROk b) (S i) s) as (l & E & W). exists l. split; [exact E|]. intros x Hx. destruct (W x Hx). split; [cbn; eauto|assumption].
      + destruct (IH (RErr e) (S i) s) as (l & E & W). exists l. split; [exact E|]. intros x Hx. destruct (W x Hx). split; [cbn; eauto|assumption].
      + exists []. split; [reflexivity|intros x []].
    - destruct (write_exec (rdb_ops H enc dec (envs i)) s c) as [W1 _].
      destruct (write_call (rdb_ops H enc dec (envs i)) s c) as [[b|e|] s1]; cbn [fst snd] in W1.
      + destruct (IH (ROk b) (S i) s1) as (l & E & W). exists ((envs i, op_of c) :: l). split.
        * unfold run_from. cbn [fold_left]. unfold rdb_step at 2. cbn [fst snd]. rewrite W1. exact E.
        * intros x [<-|Hx]; cbn; [eauto|]. destruct (W x Hx). eauto.
      + destruct (IH (RErr e) (S i) s1) as (l & E & W). exists ((envs i, op_of c) :: l). split.
        * unfold run_from. cbn [fold_left]. unfold rdb_step at 2. cbn [fst snd]. rewrite W1. exact E.
        * intros x [<-|Hx]; cbn; [eauto|]. destruct (W x Hx). eauto.
      + exists [(envs i, op_of c)]. split.
        * unfold run_from. cbn [fold_left]. unfold rdb_step. cbn [fst snd]. now rewrite W1.
        * intros x [<-|[]]. cbn. eauto.
  Qed.
  Lemma handle_envs s a : exists l, snd (rhandle s a) = run_from H enc dec s l /\
    (forall x, In x l -> issues alnum dec codes a (snd x) /\ (fst x = a_env a \/ exists k, fst x = a_envs a k)).
  Proof.
    destruct (@handle_cases alnum enc dec codes _ _ (rdb_step H enc dec) (rdb_plugin H enc dec) s a) as [X|[(o & R & X)|(name & arg & v & c & Rq' & Hc & X)]]; rewrite X.
    - exists []. split; [reflexivity|intros x []].
    - exists [(a_env a, o)]. split; [reflexivity|]. intros x [<-|[]]. split; [now left|now left].
    - destruct (prog_envs (a_envs a) (c v) 0 s) as (l & E & W). exists l. split; [exact E|]. intros x Hx. destruct (W x Hx) as [W1 W2].
      split; [right; exists name, arg, v, c; auto|auto].
  Qed.

  Variable p : bytes.
  Hypothesis reread : forall t v, dec t = Some v -> dec (enc v) = Some v.
  Hypothesis goodc : good_codes enc dec codes.
  Notation meta := (meta_inv H enc dec).

  (** No write of the request fails. *)
  Definition all_written (a : asked renv) : Prop := wok (a_env a) = true /\ forall k, wok (a_envs a k) = true.

  Lemma meta_handle s a : meta s [] -> all_written a -> meta (snd (rhandle s a)) [].
  Proof.
    intros M [W1 W2]. destruct (handle_envs s a) as (l & E & I). rewrite E.
    assert (good_history enc dec l) as G.
    { apply Forall_forall. intros x Hx. destruct (I x Hx) as [[R|(name & arg & v & c & _ & Hc & Wc)] _]; [eapply request_good; eauto|eapply goodc; eauto]. }
    destruct (meta_inv_run M G) as (L & R & ND & Sub & Sup). exists L. conj; auto. intros n Hn. destruct (Sup n Hn) as [Hi|(env & Hi & Hw)]; [auto|].
    exfalso. destruct (I _ Hi) as [_ [X|[k X]]]; cbn in X; subst env; [congruence|]. specialize (W2 k). congruence.
  Qed.
  Lemma meta_new : meta rdb_empty [].
  Proof.
    destruct (@run_rep H enc dec [] (Forall_nil _)) as (L & R & M & _). specialize (M (Forall_nil _)). exists L. cbn in M. unfold metaok in M. unfold names.
    split; [exact R|]. cbn [r_indexed rdb_empty] in *. destruct (l_m L) as [l|].
    - conj; auto.
      + eapply Permutation_NoDup; [exact M|apply keys_NoDup].
      + intros n Hn. apply keys_In. eapply Permutation_in; [apply Permutation_sym, M|assumption].
      + intros n Hn. discriminate.
    - conj; [apply NoDup_nil|intros n []|]. intros n Hn. discriminate.
  Qed.
  Lemma reopened s : meta s [] -> (N.of_nat (length (keys (r_indexed s))) < 2 ^ 64)%N -> exists s1, rdb_open (r_db s) = Ok s1 /\ same s1 s.
  Proof.
    intros M L. destruct (reopen_any M L) as (s1 & E & D & _ & _ & _ & I1 & I2). exists s1. split; [exact E|]. split; [exact D|].
    apply oset_ext. intros n. apply eq_true_iff_eq. split; [apply I1|]. intros Hn. destruct (mem n (r_indexed s1)) eqn:X; [reflexivity|].
    destruct (I2 n Hn X) as (env & [] & _).
  Qed.

  (** The requests that reached a RocksDB server on [p], in order. *)
  Definition on_dir (m : machine) (i : nat) : bool :=
    match mc_up m i with
    | Some s => match sv_store s with Rocks _ q => if bytes_eq_dec q p then true else false | _ => false end
    | None => false
    end.
  Definition asked1 (m : machine) (x : mevent) : list (asked renv) :=
    match x with ToServer i (ToRocks a) => if on_dir m i then [a] else [] | _ => [] end.
  Fixpoint asked_at (m : machine) (l : list mevent) : list (asked renv) :=
    match l with [] => [] | x :: l => asked1 m x ++ asked_at (snd (m_step m x)) l end.

  (** All starts with the directory load the same plugins, none repairs it, and
      no write fails.  (That two processes do not use it at once is C59_dir_once.) *)
  Definition kept_whole (f : files) (evs : list mevent) : Prop :=
    forall evs1 x evs2, evs = evs1 ++ x :: evs2 ->
      let m1 := snd (m_trace (booted f) evs1) in
      match x with
      | Launch e c => forall max r, m_sub c = SubRocksdb p max r -> r = false /\ forall cs, has_plugins ours e (m_plugins c) cs -> cs = codes
      | ToServer i (ToRocks a) => on_dir m1 i = true -> all_written a
      | _ => True
      end.
  (** The number of indexed names fits its field. *)
  Definition few_names (f : files) (evs : list mevent) : Prop :=
    forall evs1 evs2, evs = evs1 ++ evs2 -> (N.of_nat (length (keys (r_indexed (rsession (asked_at (booted f) evs1))))) < 2 ^ 64)%N.

  Lemma on_dir_spec m i : on_dir m i = true <-> exists s st, mc_up m i = Some s /\ sv_store s = Rocks st p.
  Proof.
    unfold on_dir. destruct (mc_up m i) as [s|]; [|split; [discriminate|intros (? & ? & X & _); discriminate]].
    destruct (sv_store s) as [st q|st q] eqn:Ss.
    - split; [discriminate|]. intros (s1 & st1 & X & Y). inversion X; subst. congruence.
    - destruct (bytes_eq_dec q p) as [->|N].
      + split; [intros _; eauto|auto].
      + split; [discriminate|]. intros (s1 & st1 & X & Y). inversion X; subst. rewrite Y in Ss. inversion Ss; subst. now elim N.
  Qed.
  Lemma asked_app m l1 l2 : asked_at m (l1 ++ l2) = asked_at m l1 ++ asked_at (snd (m_trace m l1)) l2.
  Proof.
    revert m. induction l1 as [|x l1 IH]; intros m; cbn [app asked_at Startup.m_trace snd]; [reflexivity|].
    rewrite IH, app_assoc. destruct (m_step m x) as [r m1]. cbn [snd]. now destruct (m_trace m1 l1).
  Qed.

  (** Opening never changes the contents. *)
  Lemma open_contents e x r ds : open_dir e x = (r, ds) ->
    match last ds None with Some y => rd_db y | None => db_empty end = match x with Some y => rd_db y | None => db_empty end.
  Proof.
    assert (forall r0, rd_db r0 = match x with Some y => rd_db y | None => db_empty end ->
      (if ro_second e then
       match rd_cfs r0 with
       | [] => let (b, l) := create_cfs (ro_create e) 0 r0 cf_names in ((if b then rdb_open (rd_db r0) else Err EDatastore), x :: map Some l)
       | _ => (Err EDatastore, [x])
       end else (Err EDatastore, [x])) = (r, ds) ->
      match last ds None with Some y => rd_db y | None => db_empty end = match x with Some y => rd_db y | None => db_empty end) as Second.
    { intros r0 E0. destruct (ro_second e); [|intros E; inversion E; reflexivity]. destruct (rd_cfs r0); [|intros E; inversion E; reflexivity].
      destruct (create_cfs (ro_create e) 0 r0 cf_names) as [b l] eqn:Ec. intros E. inversion E; subst ds. destruct (create_states _ _ _ _ Ec) as [A _].
      assert (forall y, In y l -> rd_db y = rd_db r0) as All.
      { intros y Hy. apply In_nth_error in Hy as [k Hk]. destruct (A _ _ Hk) as [-> _]. reflexivity. }
      clear - All E0. destruct l as [|y l _] using rev_ind; [reflexivity|].
      rewrite map_app, app_comm_cons. cbn [map]. rewrite last_last, (All y); [exact E0|]. apply in_or_app. right. now left. }
    unfold open_dir. destruct x as [r0|].
    - destruct (ro_first e && subset cf_names (rd_cfs r0) && subset (rd_cfs r0) cf_names); [intros E; inversion E; reflexivity|]. now apply Second.
    - now apply Second.
  Qed.

  Definition contents (m : machine) : db := match f_dir (mc_files m) p with Some r => rd_db r | None => db_empty end.
  Definition rsound (m : machine) (live : list (asked renv)) : Prop :=
    meta (rsession live) [] /\ contents m = r_db (rsession live) /\
    forall i s st, mc_up m i = Some s -> sv_store s = Rocks st p -> sv_codes s = codes /\ same st (rsession live).

  Lemma rsound_step m x live : rsound m live -> apart m -> (N.of_nat (length (keys (r_indexed (rsession live)))) < 2 ^ 64)%N ->
    match x with
    | Launch e c => forall max r, m_sub c = SubRocksdb p max r -> r = false /\ forall cs, has_plugins ours e (m_plugins c) cs -> cs = codes
    | ToServer i (ToRocks a) => on_dir m i = true -> all_written a
    | _ => True
    end -> rsound (snd (m_step m x)) (live ++ asked1 m x).
  Proof.
    intros (M & D & U) [_ Ap] Few C.
    assert (forall m1 i, mc_up m1 = upd (mc_up m) i None -> f_dir (mc_files m1) = f_dir (mc_files m) -> rsound m1 live) as Gone.
    { intros m1 i E Ed. split; [exact M|]. split; [unfold contents in *; now rewrite Ed|]. intros j s st. rewrite E. unfold upd. destruct (Nat.eqb_spec j i); [discriminate|]. apply U. }
    destruct x as [e c|i q|i|i g k]; cbn [asked1]; rewrite ?app_nil_r.
    - cbn [Startup.m_step]. destruct (launch m e c) as [l m'] eqn:E. cbn [snd].
      assert (forall q max r, m_sub c = SubRocksdb q max r -> q = p -> r = false) as NoRep by (intros q max r X ->; exact (proj1 (C max r X))).
      destruct l as [i| |].
      + apply C59_started in E as (a & addr & rest & st & cs & fs & _ & _ & _ & _ & Sv & Hp & -> & ->). unfold serves in Sv.
        assert (forall st0, (forall st1, st0 <> Rocks st1 p) -> f_dir fs p = f_dir (mc_files m) p -> rsound (Machine fs (upd (mc_up m) (mc_next m) (Some (Srv addr st0 cs))) (S (mc_next m))) live) as Else.
        { intros st0 N F. split; [exact M|]. split; [unfold contents in *; cbn [mc_files]; now rewrite F|]. intros j s st1. cbn. unfold upd.
          destruct (Nat.eqb_spec j (mc_next m)); [|apply U]. intros X Y. inversion X; subst. cbn in Y. now elim (N st1). }
        destruct (m_sub c) as [|[q|]|q max rep] eqn:Sc.
        * destruct Sv as [-> ->]. apply Else; [discriminate|reflexivity].
        * destruct Sv as (st0 & -> & -> & _). apply Else; [discriminate|reflexivity].
        * destruct Sv as [-> ->]. apply Else; [discriminate|reflexivity].
        * destruct Sv as (-> & _ & _ & s0 & ds & Eo & -> & ->). destruct (bytes_eq_dec q p) as [->|Nq].
          -- destruct (C _ _ eq_refl) as [_ Cs]. pose proof (open_contents _ _ Eo) as Oc. fold (contents m) in Oc.
             destruct (C59_rdb_opened _ _ Eo) as (r & La & _ & Rd & Ro & _). rewrite La in Oc.
             destruct (reopened M Few) as (s1 & E1 & Sm). rewrite <- D, <- Oc, Ro in E1. inversion E1; subst s1.
             split; [exact M|]. split.
             ++ unfold contents. cbn [mc_files f_dir]. unfold set. destruct (bytes_eq_dec p p) as [_|X]; [|now elim X]. rewrite La. now rewrite Oc.
             ++ intros j s st1. cbn. unfold upd. destruct (Nat.eqb_spec j (mc_next m)); [|apply U]. intros X Y. inversion X; subst. cbn in *. inversion Y; subst.
                split; [now apply Cs|exact Sm].
          -- apply Else; [intros st1 X; inversion X; now elim Nq|]. cbn. unfold set. destruct (bytes_eq_dec p q) as [X|]; [now elim Nq|reflexivity].
      + destruct (@C59_not_started lim ours m e c _ m' E ltac:(discriminate)) as (Up & _ & _ & Dr & _).
        assert (f_dir (mc_files m') p = f_dir (mc_files m) p) as Fd.
        { destruct (m_sub c) as [| |q max rep] eqn:Sc; [apply Dr; discriminate|apply Dr; discriminate|]. destruct (bytes_eq_dec q p) as [->|Nq].
          - exfalso. rewrite (NoRep _ _ _ eq_refl eq_refl) in Sc. unfold Startup.launch in E. destruct (parse_cli_args c) as [a| |] eqn:P; try discriminate.
            pose proof (proj1 (C59_arguments c a) P) as (_ & Da & _). rewrite Sc in Da. destruct (ca_ds a) as [|p' z r'] eqn:Ca; [contradiction|]. destruct Da as (<- & <- & _).
            destruct (le_resolve e (ca_addr a)) as [[|addr rest]|]; try discriminate. destruct (le_free e addr && negb (listeningb m addr)); [|discriminate].
            unfold start_ds in E. rewrite Ca in E. destruct (uses_dirb m p); [discriminate|]. destruct (f_image (mc_files m) p); [discriminate|].
            destruct (open_dir (le_rocks e) (f_dir (mc_files m) p)) as [[s| |] ds]; try discriminate.
            apply run_server_cases in E as [(X & _)|(X & _)]; discriminate.
          - apply Dr. intros max0 r0 X. inversion X. now elim Nq. }
        split; [exact M|]. split; [unfold contents in *; now rewrite Fd|]. rewrite Up. exact U.
      + destruct (@C59_not_started lim ours m e c _ m' E ltac:(discriminate)) as (Up & _ & _ & Dr & _).
        split; [exact M|]. split; [|rewrite Up; exact U]. rewrite <- D.
        destruct (m_sub c) as [| |q max rep] eqn:Sc; [unfold contents; rewrite Dr; [reflexivity|discriminate]|unfold contents; rewrite Dr; [reflexivity|discriminate]|].
        destruct (bytes_eq_dec q p) as [->|Nq]; [|unfold contents; rewrite Dr; [reflexivity|]; intros max0 r0 X; inversion X; now elim Nq].
        rewrite (NoRep _ _ _ eq_refl eq_refl) in Sc. unfold Startup.launch in E. destruct (parse_cli_args c) as [a| |] eqn:P; try (inversion E; reflexivity).
        pose proof (proj1 (C59_arguments c a) P) as (_ & Da & _). rewrite Sc in Da. destruct (ca_ds a) as [|p' z r'] eqn:Ca; [contradiction|]. destruct Da as (<- & <- & _).
        destruct (le_resolve e (ca_addr a)) as [[|addr rest]|]; try (inversion E; reflexivity). destruct (le_free e addr && negb (listeningb m addr)); [|inversion E; reflexivity].
        unfold start_ds in E. rewrite Ca in E. destruct (uses_dirb m p); [inversion E; reflexivity|]. destruct (f_image (mc_files m) p); [inversion E; reflexivity|].
        destruct (open_dir (le_rocks e) (f_dir (mc_files m) p)) as [o ds] eqn:Eo. pose proof (open_contents _ _ Eo) as Oc. fold (contents m) in Oc.
        assert (forall b, set (f_dir (mc_files m)) p b p = b) as Se by (intros b; unfold set; now destruct (bytes_eq_dec p p)).
        assert (mc_files m' = Files (f_image (mc_files m)) (set (f_dir (mc_files m)) p (last ds None))) as Fm.
        { destruct o as [s| |]; [|inversion E; reflexivity|inversion E; reflexivity]. apply run_server_cases in E as [(_ & -> & _)|(X & _)]; [reflexivity|discriminate]. }
        unfold contents. rewrite Fm. cbn [f_dir]. rewrite Se. exact Oc.
    - cbn [Startup.m_step]. destruct (Startup.ask alnum enc dec dbg H m i q) as [r1 m1] eqn:Ea. cbn [snd].
      pose proof (@ask_up alnum enc dec dbg H m i q r1 m1 Ea) as [_ Up].
      destruct (on_dir m i) eqn:Oi.
      + apply on_dir_spec in Oi as (s & st & Ui & Ss). unfold Startup.ask in Ea. rewrite Ui, Ss in Ea. destruct q as [a g|a].
        1:{ inversion Ea; subst. rewrite app_nil_r. split; [exact M|]. split; [exact D|exact U]. }
        destruct (U _ _ _ Ui Ss) as [Ec Sm]. rewrite Ec in Ea. destruct (rhandle st a) as [r2 st'] eqn:Hd. inversion Ea; subst r1 m1. clear Ea.
        destruct (rhandle_same a Sm) as [_ Sm']. rewrite Hd in Sm'. cbn [snd] in Sm'.
        assert (rsession (live ++ [a]) = snd (rhandle (rsession live) a)) as Es by (unfold session; now rewrite fold_left_app). rewrite <- Es in Sm'.
        split; [rewrite Es; apply meta_handle; auto|]. split.
        * unfold contents. cbn [mc_files f_dir]. unfold set. destruct (bytes_eq_dec p p) as [_|X]; [|now elim X]. apply Sm'.
        * intros j s0 st0. cbn. unfold upd. destruct (Nat.eqb_spec j i) as [->|Nj].
          -- intros X Y. inversion X; subst. cbn in *. inversion Y; subst. auto.
          -- intros X Y. exfalso. destruct (Ap _ _ _ _ X Ui Nj) as [_ B]. now apply (B _ _ _ _ Y Ss).
      + assert (match q with ToMem _ _ => @nil (asked renv) | ToRocks a => [] end = []) as Nil by (destruct q; reflexivity). rewrite Nil, app_nil_r.
        pose proof (@C59_locality alnum enc dec dbg H lim ours m (ToServer i q) p) as [_ L2]. cbn [Startup.m_step] in L2. rewrite Ea in L2. cbn [snd] in L2.
        split; [exact M|]. split.
        * rewrite <- D. unfold contents. unfold Startup.ask in Ea. destruct (mc_up m i) as [s|] eqn:Ui; [|inversion Ea; reflexivity].
          destruct (sv_store s) as [st [p0|]|st p0] eqn:Ss; destruct q as [a g|a]; try (inversion Ea; reflexivity).
          -- destruct (handle _ _ _ _ _ _ _ _) as [r2 x]. inversion Ea; reflexivity.
          -- destruct (handle _ _ _ _ _ _ _ _) as [r2 x]. inversion Ea; reflexivity.
          -- destruct (handle _ _ _ _ _ _ _ _) as [r2 x]. inversion Ea; subst. cbn [mc_files f_dir]. unfold set.
             destruct (bytes_eq_dec p p0) as [X|]; [|reflexivity]. exfalso. rewrite <- X in Ss. assert (on_dir m i = true) as Y by (apply on_dir_spec; eauto). congruence.
        * intros j s' st Uj Sj. pose proof (Up j) as V. rewrite Uj in V. destruct (mc_up m j) as [s|] eqn:Um; [|contradiction].
          destruct V as (_ & Pl & _ & V). assert (j <> i) as Nj.
          { intros ->. rewrite Sj in Pl. destruct (sv_store s) as [|st0 q0] eqn:Ss; [discriminate|]. cbn in Pl. inversion Pl; subst q0.
            assert (on_dir m i = true) as Y by (apply on_dir_spec; eauto). congruence. }
          rewrite (V Nj) in *. eapply U; eauto.
    - now apply (Gone _ i).
    - destruct (kill_up m i g k) as [Ku _]. apply (Gone _ i); [exact Ku|]. cbn [Startup.m_step snd]. unfold kill. destruct (mc_up m i) as [s|]; [|reflexivity].
      destruct (sv_store s) as [[mm|] [p0|]|]; reflexivity.
  Qed.

  Lemma rsound_history f evs : f_dir f p = None -> kept_whole f evs -> few_names f evs -> rsound (snd (m_trace (booted f) evs)) (asked_at (booted f) evs).
  Proof.
    intros F. induction evs as [|x evs IH] using rev_ind; intros O Few.
    - split; [apply meta_new|]. split; [unfold contents; cbn; now rewrite F|]. intros i s st. discriminate.
    - rewrite asked_app, m_trace_app.
      assert (kept_whole f evs) as O' by (intros e1 y e2 ->; apply (O e1 y (e2 ++ [x])); now rewrite <- app_assoc).
      assert (few_names f evs) as Few' by (intros e1 e2 ->; apply (Few e1 (e2 ++ [x])); now rewrite <- app_assoc).
      specialize (IH O' Few'). pose proof (O evs x [] eq_refl) as Ox. cbn zeta in Ox. specialize (Few evs [x] eq_refl).
      pose proof (apart_history alnum enc dec dbg H lim ours f evs) as Ap.
      destruct (m_trace (booted f) evs) as [rs m]. cbn [snd] in *. cbn [asked_at Startup.m_trace]. rewrite app_nil_r.
      pose proof (rsound_step x IH Ap Few Ox) as X. now destruct (m_step m x).
  Qed.

  (** A RocksDB server, however often it was stopped and started again on its
      directory, answers every later conversation as one that was never
      stopped. *)
  Theorem C59_rdb_deployment f evs i s st : f_dir f p = None -> kept_whole f evs -> few_names f evs ->
    let m := snd (m_trace (booted f) evs) in
    mc_up m i = Some s -> sv_store s = Rocks st p ->
    sv_codes s = codes /\ forall later, rresponses st later = rresponses (rsession (asked_at (booted f) evs)) later.
  Proof.
    intros F O Few m U Ss. destruct (rsound_history F O Few) as (_ & _ & Up). destruct (Up _ _ _ U Ss) as [Ec Sm]. split; [exact Ec|].
    intros later. now apply rresponses_same.
  Qed.
  (** And once such a server ran, it can always be started again, if nothing
      outside hinders. *)
  Theorem C59_rdb_restart f evs e c a addr rest cs r max : f_dir f p = None -> kept_whole f evs -> few_names f evs ->
    let m := snd (m_trace (booted f) evs) in
    f_dir (mc_files m) p = Some r -> complete r -> f_image (mc_files m) p = None ->
    m_sub c = SubRocksdb p max false -> parse_cli_args c = Args a -> le_resolve e (ca_addr a) = Some (addr :: rest) ->
    le_free e addr = true -> ~ listening m addr -> ~ uses_dir m p -> le_rocks e = unhindered -> has_plugins ours e (m_plugins c) cs ->
    exists i m', launch m e c = (Serving i, m').
  Proof.
    intros F O Few m Fd Co Fi Sc Pa Re Fr Nl Nd Un Hp. destruct (rsound_history F O Few) as (M & D & _). fold m in D.
    destruct (apart_history alnum enc dec dbg H lim ours f evs) as [Nu _]. fold m in Nu.
    specialize (Few evs [] (eq_sym (app_nil_r _))). destruct (reopened M Few) as (s1 & E1 & _). unfold contents in D. rewrite Fd in D. rewrite <- D in E1.
    assert (listeningb m addr = false) as Lb. { destruct (listeningb m addr) eqn:X; [|reflexivity]. apply (proj1 (@listeningb_spec alnum dec H m addr Nu)) in X. contradiction. }
    assert (uses_dirb m p = false) as Ub. { destruct (uses_dirb m p) eqn:X; [|reflexivity]. apply (proj1 (@uses_dirb_spec alnum dec H m p Nu)) in X. contradiction. }
    eexists _, _. apply C59_started. exists a, addr, rest, (Rocks s1 p), cs, (Files (f_image (mc_files m)) (set (f_dir (mc_files m)) p (Some r))). conj; auto.
    rewrite Sc. cbn [serves]. conj; auto. exists s1, [Some r]. conj; auto. rewrite Un, Fd. unfold open_dir. cbn [ro_first unhindered andb].
    apply complete_spec in Co. rewrite Co. now rewrite E1.
  Qed.
End Rocks.

(** ** Refuted *)

(** The outside does not hinder; names resolve to themselves. *)
Definition env0 : launch_env :=
  LEnv (fun a => Some [a]) (fun _ => true) (fun _ => true) (fun _ => true) unhindered (fun r => Some r) (fun _ => None).
Definition env_hidden : launch_env :=
  LEnv (fun a => Some [a]) (fun _ => true) (fun _ => false) (fun _ => false) unhindered (fun r => Some r) (fun _ => None).
Definition image_path : bytes := String.list_byte_of_string "db.msgpack".
Definition dir_path : bytes := String.list_byte_of_string "db.rdb".
Definition other_addr : bytes := String.list_byte_of_string "127.0.0.1:27616".
Definition run_memory : matches := Matches None None (SubMemory (Some image_path)).
Definition run_memory2 : matches := Matches (Some other_addr) None (SubMemory (Some image_path)).
Definition run_rocks : matches := Matches None None (SubRocksdb dir_path None false).
Definition no_files : files := Files (fun _ => None) (fun _ => None).
Definition to (i : nat) (rq : request) : mevent := ToServer i (ToMem (PropsDeploy.ask rq) fenv_ok).
Definition to_r (i : nat) (rq : request) : mevent := ToServer i (ToRocks (rask rq)).
Definition trace0 := m_trace alnum0 enc0 dec0 true hash0 (1018 + 6) (default_version []).
Definition counted (n : N) : reply := RAnswer (Some (SOk (RsStream [SOk (to_out enc0 (Count n))]))).
Definition done : reply := RAnswer (Some (SOk RsEmpty)).

(** A start that cannot see whether the file exists begins with an empty
    database, and its first [sync] overwrites the file: acknowledged data that had
    been synced is lost, and no one is told. *)
Definition hidden : list mevent :=
  [Launch env0 run_memory; to 0 (RqCreateVertex (to_vertex v1)); to 0 RqSync; Stop 0;
   Launch env_hidden run_memory; to 1 RqSync; Stop 1;
   Launch env0 run_memory; to 2 (RqGet count_query)].
Theorem C59_hidden_refuted : fst (trace0 (booted no_files) hidden) =
  [RLaunched (Serving 0); RAnswer (Some (SOk (RsCreated true))); done; RNone;
   RLaunched (Serving 1); done; RNone; RLaunched (Serving 2); counted 0].
Proof. vm_compute. reflexivity. Qed.

(** Two in-memory servers may have the same path: the [sync] of one overwrites
    what the other had synced. *)
Definition two_writers : list mevent :=
  [Launch env0 run_memory; Launch env0 run_memory2; to 0 (RqCreateVertex (to_vertex v1)); to 0 RqSync; to 1 RqSync; Stop 0; Stop 1;
   Launch env0 run_memory; to 2 (RqGet count_query)].
Theorem C59_two_writers_refuted : fst (trace0 (booted no_files) two_writers) =
  [RLaunched (Serving 0); RLaunched (Serving 1); RAnswer (Some (SOk (RsCreated true))); done; done; RNone; RNone;
   RLaunched (Serving 2); counted 0].
Proof. vm_compute. reflexivity. Qed.

(** ** Concrete histories *)

(** A vertex, a [sync], a second vertex, a second server that cannot be started
    on the same address, and a restart: the first vertex is there. *)
Definition mem_life : list mevent :=
  [Launch env0 run_memory; to 0 (RqCreateVertex (to_vertex v1)); to 0 RqSync; to 0 (RqCreateVertex (to_vertex v2)); Launch env0 run_rocks; Stop 0;
   Launch env0 run_memory; to 1 (RqGet count_query)].
Example C59_memory_case :
  fst (trace0 (booted no_files) mem_life) =
    [RLaunched (Serving 0); RAnswer (Some (SOk (RsCreated true))); done; RAnswer (Some (SOk (RsCreated true))); RLaunched Ended; RNone;
     RLaunched (Serving 1); counted 1] /\
  one_user alnum0 enc0 dec0 true hash0 1018 (default_version []) image_path [] no_files mem_life.
Proof.
  split; [vm_compute; reflexivity|].
  assert (forall evs i, at_path image_path (snd (trace0 (booted no_files) evs)) i = true -> (i < mc_next (snd (trace0 (booted no_files) evs)))%nat) as Nu.
  { intros evs i Hi. destruct (apart_history alnum0 enc0 dec0 true hash0 (1018 + 6) (default_version []) no_files evs) as [N _].
    apply at_path_spec in Hi as (s & st & U & _). exact (N _ _ U). }
  assert (forall evs, forallb (fun i => negb (at_path image_path (snd (trace0 (booted no_files) evs)) i)) (seq 0 (mc_next (snd (trace0 (booted no_files) evs)))) = true ->
    forall i, at_path image_path (snd (trace0 (booted no_files) evs)) i = false) as None0.
  { intros evs F i. destruct (at_path image_path (snd (trace0 (booted no_files) evs)) i) eqn:E; [|reflexivity].
    rewrite forallb_forall in F. specialize (F i). rewrite E in F. discriminate F. apply in_seq. specialize (Nu _ _ E). lia. }
  assert (forall evs1 x evs2, mem_life = evs1 ++ x :: evs2 -> evs1 = firstn (length evs1) mem_life /\ nth_error mem_life (length evs1) = Some x /\ (length evs1 < 8)%nat) as Cut.
  { intros evs1 x evs2 E. rewrite E. rewrite firstn_app, Nat.sub_diag, firstn_all, firstn_O, app_nil_r, nth_error_app2, Nat.sub_diag by lia. conj; auto.
    assert (length mem_life = 8) as L by reflexivity. rewrite E, app_length in L. cbn in L. lia. }
  intros evs1 x evs2 E. destruct (Cut _ _ _ E) as (E1 & Ex & L). fold trace0. generalize dependent (length evs1). intros n E1 Ex L. subst evs1. clear E Cut.
  destruct n as [|[|[|[|[|[|[|[|n]]]]]]]]; [..|lia]; inversion Ex; subst x; clear Ex L.
  - split; [discriminate|]. intros _. split; [reflexivity|]. split; [intros cs X; exact X|]. apply None0. reflexivity.
  - intros m1 s mm U Ss X. discriminate X.
  - intros m1 s mm U Ss _. subst m1.
    set (dis := fun m : machine => match mc_up m 0 with Some s => match sv_store s with Mem (Some mm) _ => fitsb 1018 mm && (length (canon_bytes mm) <=? 4000)%nat | _ => false end | _ => false end).
    assert (dis (snd (trace0 (booted no_files) (firstn 2 mem_life))) = true) as D by (vm_compute; reflexivity). unfold dis in D. unfold trace0 in D. unfold trace0 in U. rewrite U, Ss in D.
    apply andb_true_iff in D as [D1 D2]. split; [now apply fitsb_ok|]. apply Nat.leb_le in D2. exact D2.
  - intros m1 s mm U Ss X. discriminate X.
  - split; [intros max r X; discriminate|]. intros X; discriminate.
  - exact I.
  - split; [discriminate|]. intros _. split; [reflexivity|]. split; [intros cs X; exact X|]. apply None0. vm_compute. reflexivity.
  - intros m1 s mm U Ss X. discriminate X.
Qed.

(** A RocksDB server: a vertex, a second start on the directory that is refused,
    a restart, and the vertex is there. *)
Definition rocks_life : list mevent :=
  [Launch env0 run_rocks; to_r 0 (RqCreateVertex (to_vertex v1)); Launch env0 (Matches (Some other_addr) None (SubRocksdb dir_path None false)); Stop 0;
   Launch env0 run_rocks; to_r 1 (RqGet count_query)].
Example C59_rdb_case :
  fst (trace0 (booted no_files) rocks_life) =
    [RLaunched (Serving 0); RAnswer (Some (SOk (RsCreated true))); RLaunched Ended; RNone; RLaunched (Serving 1); counted 1] /\
  kept_whole alnum0 enc0 dec0 true hash0 (1018 + 6) (default_version []) [] dir_path no_files rocks_life /\
  few_names alnum0 enc0 dec0 true hash0 (1018 + 6) (default_version []) [] dir_path no_files rocks_life.
Proof.
  split; [vm_compute; reflexivity|]. split.
  - intros evs1 x evs2 E. assert (In x rocks_life) as Hx by (rewrite E; apply in_or_app; right; now left).
    assert (forall c, m_plugins c = None -> forall cs, has_plugins (default_version []) env0 (m_plugins c) cs -> cs = []) as NoP by (intros c -> cs X; exact X).
    intros m1. destruct Hx as [<-|[<-|[<-|[<-|[<-|[<-|[]]]]]]]; try exact I; try (intros _; split; [reflexivity|intros k; reflexivity]);
      (intros max r X; inversion X; subst; split; [reflexivity|now apply NoP]).
  - intros evs1 evs2 E.
    assert (evs1 = firstn (length evs1) rocks_life /\ (length evs1 <= 6)%nat) as [E1 L].
    { rewrite E. rewrite firstn_app, Nat.sub_diag, firstn_all, firstn_O, app_nil_r. split; [reflexivity|].
      assert (length rocks_life = 6) as L by reflexivity. rewrite E, app_length in L. lia. }
    generalize dependent (length evs1). intros n E1 L. subst evs1. clear E.
    destruct n as [|[|[|[|[|[|[|n]]]]]]]; [..|lia]; vm_compute; reflexivity.
Qed.
