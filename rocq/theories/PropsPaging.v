(** * C63: paging while the database changes

    A client reads the vertices page by page, as in C09; between two pages other
    calls are made, by anybody.  What it gets is ascending (so nothing twice), what
    is in a page was there when the page was read, and what was there all the time
    is not missed; it comes to an end. *)
From Verif Require Import Base OMap Json Types Util Db Mem Rdb Spec QueryFacts SpecFacts UtilFacts MemFacts MemHist KeyFacts RdbSpec
  RdbGraph RdbHist RdbRefine Stages Effects Claims PropsMem PropsRdb PropsRdbIndex Examples.

Set Implicit Arguments.

(** ** Reading page by page *)
Section Scan.
  (** [later s s']: [s'] is reached from [s] by any calls.  [ask s start vs]: asked
      in [s] for at most [k] vertices from [start] on, the database says [vs]. *)
  Variable state : Type.
  Variable later : state -> state -> Prop.
  Variable k : N.
  Variable ask : state -> uuid -> list vertex -> Prop.

  (** The pages read, each with the state it was read in.  The client goes on
      after the last vertex of a page; it stops at a page that is not full, or
      after the largest UUID. *)
  Inductive scan : state -> uuid -> list (state * list vertex) -> Prop :=
  | scan_short s s' start vs : later s s' -> ask s' start vs -> (lenN vs < k)%N -> scan s start [(s', vs)]
  | scan_max s s' start vs last e :
      later s s' -> ask s' start (vs ++ [last]) -> next_uuid (vid last) = Err e -> scan s start [(s', vs ++ [last])]
  | scan_more s s' start vs last next rest :
      later s s' -> ask s' start (vs ++ [last]) -> next_uuid (vid last) = Ok next ->
      scan s' next rest -> scan s start ((s', vs ++ [last]) :: rest).
End Scan.

(** What the client may conclude from the pages [r]; [there s v]: the vertex [v]
    exists in [s]. *)
Definition faithful {state} (there : state -> vertex -> Prop) (t : option ident) (start : uuid) (r : list (state * list vertex)) : Prop :=
  let all := concat (map snd r) in
  (* ascending: no vertex twice *)
  StronglySorted vlt all /\ NoDup (map vid all) /\
  (* what is reported is right at the moment it is reported *)
  (forall s vs v, In (s, vs) r -> In v vs -> there s v /\ type_ok t (vt v) /\ ~ lt (vid v) start) /\
  (* what is there all the time is reported *)
  (forall v, type_ok t (vt v) -> ~ lt (vid v) start -> (forall s vs, In (s, vs) r -> there s v) -> In v all) /\
  (* the client comes to an end, whatever is created meanwhile *)
  (N.of_nat (length r) <= 2 ^ 128)%N.

Section ScanFaithful.
  Variable state : Type.
  Variable later : state -> state -> Prop.
  Variable k : N.
  Variable t : option ident.
  Variable ask : state -> uuid -> list vertex -> Prop.
  Variable there : state -> vertex -> Prop.
  Hypothesis asked : forall s start vs, ask s start vs -> exists full,
    listing vlt (fun v => there s v /\ type_ok t (vt v) /\ ~ lt (vid v) start) full /\ vs = firstn (N.to_nat k) full.

  Lemma vlt_trans (a b c : vertex) : vlt a b -> vlt b c -> vlt a c.
  Proof. unfold vlt. apply lt_trans. Qed.
  Lemma sorted_app (l1 l2 : list vertex) : StronglySorted vlt l1 -> StronglySorted vlt l2 -> (forall a b, In a l1 -> In b l2 -> vlt a b) ->
    StronglySorted vlt (l1 ++ l2).
  Proof.
    induction l1 as [|a l1 IH]; cbn [app]; intros S1 S2 H; [assumption|]. inversion S1 as [|? ? S3 F]; subst. constructor.
    - apply IH; auto. intros x y Hx Hy. apply H; [now right|assumption].
    - apply Forall_app. split; [assumption|]. apply Forall_forall. intros y Hy. apply H; [now left|assumption].
  Qed.
  Lemma sorted_firstn n (l : list vertex) : StronglySorted vlt l -> StronglySorted vlt (firstn n l).
  Proof.
    intros H. revert n. induction H as [|a l Hs IH F]; intros [|n]; cbn [firstn]; try constructor; [apply IH|].
    apply Forall_forall. intros x Hx. rewrite Forall_forall in F. apply F. rewrite <- (firstn_skipn n l). apply in_or_app. now left.
  Qed.
  Lemma sorted_nodup (l : list vertex) : StronglySorted vlt l -> NoDup (map vid l).
  Proof.
    induction 1 as [|a l H IH F]; cbn [map]; constructor; auto. intros I. apply in_map_iff in I as (b & Eb & Hb).
    rewrite Forall_forall in F. specialize (F b Hb). unfold vlt in F. rewrite Eb in F. now apply lt_irrefl in F.
  Qed.

  Lemma scan_ok s start r : scan later k ask s start r ->
    (forall s' vs v, In (s', vs) r -> In v vs -> there s' v /\ type_ok t (vt v) /\ ~ lt (vid v) start) /\
    StronglySorted vlt (concat (map snd r)) /\
    (forall v, type_ok t (vt v) -> ~ lt (vid v) start -> (forall s' vs, In (s', vs) r -> there s' v) -> In v (concat (map snd r))) /\
    (uval start + N.of_nat (length r) <= 256 ^ 16)%N.
  Proof.
    intros Sc. induction Sc as [s s' start vs La A L|s s' start vs last e La A N|s s' start vs last next rest La A N Sc IH];
      destruct (asked A) as (full & [So Fu] & Ev).
    - pose proof (uval_bound start) as Ub. cbn [map snd concat length]. rewrite app_nil_r. assert (full = vs) as <-.
      { rewrite Ev. symmetry. apply firstn_all2. unfold lenN in L. rewrite Ev, firstn_length in L. lia. }
      conj.
      + intros s1 vs1 v [E|[]] Hv. inversion E; subst. now apply Fu.
      + exact So.
      + intros v Ty St Th. apply Fu. conj; auto. apply (Th s' full). now left.
      + lia.
    - pose proof (uval_bound start) as Ub. cbn [map snd concat length]. rewrite app_nil_r.
      assert (exists more, full = (vs ++ [last]) ++ more) as (more & Ef) by (exists (skipn (N.to_nat k) full); now rewrite Ev, firstn_skipn).
      assert (is_max (vid last)) as M.
      { destruct (next_uuid_total (vid last)) as [(v & Hv)|Hv]; [congruence|now apply next_uuid_max]. }
      assert (more = []) as ->.
      { destruct more as [|w more]; [reflexivity|]. exfalso. rewrite <- app_assoc in Ef. cbn [app] in Ef.
        assert (listing vlt (fun v => there s' v /\ type_ok t (vt v) /\ ~ lt (vid v) start) (vs ++ last :: w :: more)) as Li by (rewrite <- Ef; now split).
        destruct (listing_split _ _ _ Li) as [L2 _]. destruct (proj1 (proj2 L2 w) (or_introl eq_refl)) as [_ Hw]. now apply M in Hw. }
      rewrite app_nil_r in Ef. rewrite <- Ef. conj.
      + intros s1 vs1 v [E|[]] Hv. inversion E; subst. now apply Fu.
      + exact So.
      + intros v Ty St Th. apply Fu. conj; auto. apply (Th s' full). now left.
      + lia.
    - destruct IH as (I1 & I2 & I3 & I4). cbn [map snd concat length].
      assert (exists more, full = (vs ++ [last]) ++ more) as (more & Ef) by (exists (skipn (N.to_nat k) full); now rewrite Ev, firstn_skipn).
      rewrite <- app_assoc in Ef. cbn [app] in Ef.
      assert (listing vlt (fun v => there s' v /\ type_ok t (vt v) /\ ~ lt (vid v) start) (vs ++ last :: more)) as Li by (rewrite <- Ef; now split).
      destruct (listing_split _ _ _ Li) as [L2 L1].
      assert (~ lt (vid last) start) as Ls by (apply (proj2 Li last); apply in_or_app; right; now left).
      pose proof (next_uuid_value (vid last)) as Nv. rewrite N in Nv.
      assert (uval start <= uval (vid last))%N as Us by (destruct (N.le_gt_cases (uval start) (uval (vid last))); [assumption|]; exfalso; apply Ls; now apply lt_uval).
      assert (forall v, ~ lt (vid v) next <-> lt (vid last) (vid v)) as Nx.
      { intros v. rewrite !lt_uval, Nv. lia. }
      conj.
      + intros s1 vs1 v [E|Hr] Hv.
        * inversion E; subst s1 vs1. apply (proj2 Li v). rewrite in_app_iff in *. cbn [In] in *. destruct Hv as [Hv|[<-|[]]]; auto.
        * destruct (I1 s1 vs1 v Hr Hv) as (T1 & T2 & T3). conj; auto. rewrite lt_uval in *. rewrite Nv in T3. lia.
      + apply sorted_app; [|exact I2|].
        * rewrite Ev. now apply sorted_firstn.
        * intros a b Ha Hb. apply in_concat in Hb as (l & Hl & Hb). apply in_map_iff in Hl as ((s1 & vs1) & E1 & Hl). cbn in E1. subst vs1.
          destruct (I1 s1 l b Hl Hb) as (_ & _ & T3). apply Nx in T3. apply in_app_iff in Ha as [Ha|[<-|[]]]; [|exact T3].
          eapply vlt_trans; [now apply L1|exact T3].
      + intros v Ty St Th. apply in_or_app. destruct (cmp_case (vid v) (vid last)) as [E|[E|E]].
        * left. assert (In v (vs ++ last :: more)) as Iv by (apply (proj2 Li v); conj; auto; eapply Th; now left).
          apply in_app_iff in Iv as [Iv|[<-|Iv]]; [apply in_or_app; now left|apply in_or_app; right; now left|].
          exfalso. apply (proj2 L2 v) in Iv as [_ Iv]. unfold vlt in Iv. rewrite lt_uval in E, Iv. lia.
        * left. assert (In v (vs ++ last :: more)) as Iv by (apply (proj2 Li v); conj; auto; eapply Th; now left).
          apply in_app_iff in Iv as [Iv|[<-|Iv]]; [apply in_or_app; now left|apply in_or_app; right; now left|].
          exfalso. apply (proj2 L2 v) in Iv as [_ Iv]. unfold vlt in Iv. rewrite E in Iv. now apply lt_irrefl in Iv.
        * right. apply I3; auto; [now apply Nx|]. intros s1 vs1 Hr. apply (Th s1 vs1). now right.
      + lia.
  Qed.

  Theorem scan_faithful s start r : scan later k ask s start r -> faithful there t start r.
  Proof.
    intros Sc. destruct (scan_ok Sc) as (A & B & C & D). unfold faithful. conj; auto.
    - now apply sorted_nodup.
    - change (256 ^ 16)%N with (2 ^ 128)%N in D. lia.
  Qed.
End ScanFaithful.

Lemma shows_vertex {X} (ops : txn_ops X) s g v : shows ops s g -> db_get ops s (QSpecificVertex [vid v]) = Ok [Vertices [v]] <-> is_vertex g v.
Proof.
  intros Sh. pose proof (sh_vertex Sh (vid v)) as E. unfold q_vertex in E. rewrite E. unfold is_vertex. destruct (get (vid v) (gv g)) as [t|].
  - split; intros X0.
    + inversion X0 as [X1]. now rewrite <- X1.
    + inversion X0. now destruct v.
  - split; discriminate.
Qed.

(** ** The in-memory database *)
Section MemScan.
  Variable dbg : bool.
  Definition mem_later (h h' : list (order * op)) : Prop := exists calls, h' = h ++ calls.
  (** The vertices [get] reports for a range query, after the calls [h]. *)
  Definition mem_ask (k : N) (t : option ident) (h : list (order * op)) (start : uuid) (vs : list vertex) : Prop :=
    exists m ord, mem_run dbg h = Some m /\ db_get (mem_ops dbg ord) m (QRangeVertex k t (Some start)) = Ok [Vertices vs].
  (** [get] with a query for one vertex finds it. *)
  Definition mem_there (h : list (order * op)) (v : vertex) : Prop :=
    exists m, mem_run dbg h = Some m /\ forall ord, db_get (mem_ops dbg ord) m (QSpecificVertex [vid v]) = Ok [Vertices [v]].

  Lemma mem_there_iff h m v : mem_run dbg h = Some m -> mem_there h v <-> is_vertex (gof m) v.
  Proof.
    intros R. split.
    - intros (m' & R' & G). rewrite R in R'. inversion R'; subst m'. exact (proj1 (shows_vertex v (@mem_shows dbg h m R id_order)) (G id_order)).
    - intros V. exists m. split; [assumption|]. intros ord. exact (proj2 (shows_vertex v (@mem_shows dbg h m R ord)) V).
  Qed.

  Theorem C63_mem_paging k t h start r : scan mem_later k (mem_ask k t) h start r -> faithful mem_there t start r.
  Proof.
    apply scan_faithful. clear. intros h start vs (m & ord & R & E). destruct (@C09_mem_range dbg h m R ord k t (Some start)) as (l & L & G).
    rewrite G in E. inversion E; subst. exists l. split; [|reflexivity]. eapply listing_iff; [exact L|]. intros v. cbn beta. now rewrite (@mem_there_iff h m v R).
  Qed.

  (** The next page can always be read (unless a call has panicked). *)
  Theorem C63_mem_next k t h start m : mem_run dbg h = Some m -> exists vs, mem_ask k t h start vs.
  Proof. intros R. destruct (@C09_mem_range dbg h m R id_order k t (Some start)) as (l & _ & G). exists (firstn (N.to_nat k) l), m, id_order. auto. Qed.

  (** If nobody deletes, every vertex that was there at the beginning is reported. *)
  Definition no_delete (o : op) : Prop := match o with ODelete _ | TDeleteVertices _ => False | _ => True end.
  Lemma mem_stays h m x m' v : mem_run dbg h = Some m -> mem_run dbg (h ++ [x]) = Some m' -> no_delete (snd x) ->
    is_vertex (gof m) v -> is_vertex (gof m') v.
  Proof.
    intros R R' N V. rewrite mem_run_snoc, R in R'. apply mem_step_Some in R' as (m0 & r & E0 & E & P & _). inversion E0; subst m0.
    destruct (@mem_effect dbg (fst x) m (snd x) r m' (@run_mirror dbg h m R) E P) as [_ ->].
    assert (forall v0 g, is_vertex g v -> is_vertex (g_create_vertex g v0) v) as CV.
    { intros v0 g V0. unfold g_create_vertex, is_vertex in *. destruct (mem (vid v0) (gv g)) eqn:M; [assumption|]. cbn [gv]. rewrite get_set.
      destruct (eqb (vid v) (vid v0)) eqn:D; [|assumption]. apply eqb_eq in D. rewrite D in V0. apply mem_false in M. congruence. }
    assert (forall e g, is_vertex g v -> is_vertex (g_create_edge g e) v) as CE.
    { intros e g V0. unfold g_create_edge. now destruct (_ && _). }
    destruct (snd x); cbn [request snd g_apply no_delete] in *; try contradiction; auto.
    - destruct (mem id (gv (gof m))); cbn [snd g_apply]; auto.
    - destruct (answer _ m q) as [[]| |]; cbn [snd g_apply]; auto.
    - clear E. unfold g_bulk_insert. generalize dependent (gof m). induction items as [|it items IH]; intros g V; cbn [fold_left]; [assumption|].
      apply IH. destruct it; cbn [g_bulk_item]; auto.
  Qed.
  Lemma mem_stay h m v : mem_run dbg h = Some m -> is_vertex (gof m) v ->
    forall calls m', Forall (fun x => no_delete (snd x)) calls -> mem_run dbg (h ++ calls) = Some m' -> is_vertex (gof m') v.
  Proof.
    intros R V calls. induction calls as [|x calls IH] using rev_ind; intros m' F R'.
    - rewrite app_nil_r, R in R'. inversion R'; now subst.
    - apply Forall_app in F as [F Fx]. apply Forall_cons_iff in Fx as [Fx _]. rewrite app_assoc in R'.
      pose proof R' as R2. rewrite mem_run_snoc in R2. apply mem_step_Some in R2 as (m0 & r & E0 & _).
      eapply mem_stays; [exact E0|exact R'|exact Fx|]. now apply IH.
  Qed.
  Definition mem_adding (h h' : list (order * op)) : Prop := exists calls, h' = h ++ calls /\ Forall (fun x => no_delete (snd x)) calls.
  Theorem C63_mem_adding k t h start r v :
    scan mem_adding k (mem_ask k t) h start r -> mem_there h v -> type_ok t (vt v) -> ~ lt (vid v) start -> In v (concat (map snd r)).
  Proof.
    intros Sc T Ty St. assert (scan mem_later k (mem_ask k t) h start r) as Sc'.
    { clear - Sc. induction Sc as [s s' start vs (c & -> & _) A L|s s' start vs last e (c & -> & _) A N|s s' start vs last next rest (c & -> & _) A N Sc IH].
      - apply scan_short; auto. now exists c.
      - eapply scan_max; eauto. now exists c.
      - eapply scan_more; eauto. now exists c. }
    destruct (C63_mem_paging Sc') as (_ & _ & _ & All & _). apply All; auto.
    assert (forall s start r, scan mem_adding k (mem_ask k t) s start r -> mem_there s v -> forall s' vs, In (s', vs) r -> mem_there s' v) as K.
    { clear - v. assert (forall s s' start vs, mem_adding s s' -> mem_ask k t s' start vs -> mem_there s v -> mem_there s' v) as Step.
      { intros s s' start vs (c & -> & F) (m' & ord & R' & _) (m & R & G). apply (@mem_there_iff (s ++ c) m' v R').
        refine (@mem_stay s m v R _ c m' F R'). apply (@mem_there_iff s m v R). exists m. auto. }
      intros s start r Sc. induction Sc as [s s0 start vs La A L|s s0 start vs last e La A N|s s0 start vs last next rest La A N Sc IH]; intros T s' vs' I.
      - destruct I as [I|[]]. inversion I; subst. eapply Step; eauto.
      - destruct I as [I|[]]. inversion I; subst. eapply Step; eauto.
      - pose proof (Step _ _ _ _ La A T) as T'. destruct I as [I|I]; [inversion I; now subst|]. eapply IH; eauto. }
    exact (K _ _ _ Sc T).
  Qed.
End MemScan.

(** ** RocksDB *)
Section RdbScan.
  Variable H : list byte -> N.
  Variable enc : json -> bytes.
  Variable dec : bytes -> option json.
  Definition rdb_later (h h' : list (renv * op)) : Prop := exists calls, h' = h ++ calls.
  Definition rdb_ask (k : N) (t : option ident) (h : list (renv * op)) (start : uuid) (vs : list vertex) : Prop :=
    good_history enc dec h /\
    exists env, db_get (rdb_ops H enc dec env) (rdb_run H enc dec h) (QRangeVertex k t (Some start)) = Ok [Vertices vs].
  Definition rdb_there (h : list (renv * op)) (v : vertex) : Prop :=
    forall env, db_get (rdb_ops H enc dec env) (rdb_run H enc dec h) (QSpecificVertex [vid v]) = Ok [Vertices [v]].

  Lemma rdb_there_iff h v : good_history enc dec h -> rdb_there h v <-> is_vertex (rgof dec (rdb_run H enc dec h)) v.
  Proof.
    intros G. split.
    - intros T. exact (proj1 (shows_vertex v (@rdb_shows H enc dec h G ok_env)) (T ok_env)).
    - intros V env. exact (proj2 (shows_vertex v (@rdb_shows H enc dec h G env)) V).
  Qed.
  Theorem C63_rdb_paging k t h start r : scan rdb_later k (rdb_ask k t) h start r -> faithful rdb_there t start r.
  Proof.
    apply scan_faithful. clear. intros h start vs (Gh & env & E). destruct (@C09_rdb_range H enc dec h Gh env k t (Some start)) as (l & L & G).
    rewrite G in E. inversion E; subst. exists l. split; [|reflexivity]. eapply listing_iff; [exact L|]. intros v. cbn beta. now rewrite (@rdb_there_iff h v Gh).
  Qed.
  Theorem C63_rdb_next k t h start : good_history enc dec h -> exists vs, rdb_ask k t h start vs.
  Proof. intros G. destruct (@C09_rdb_range H enc dec h G ok_env k t (Some start)) as (l & _ & E). exists (firstn (N.to_nat k) l). split; [assumption|]. now exists ok_env. Qed.

  (** If nobody deletes, and nobody overwrites the vertex with one of another type
      by a bulk insert, it is reported. *)
  Definition spares (v : vertex) (o : op) : Prop :=
    no_delete o /\ match o with OBulkInsert items => forall w, In (BVertex w) items -> vid w = vid v -> w = v | _ => True end.
  Lemma rdb_stays h x v : good_history enc dec (h ++ [x]) -> spares v (snd x) ->
    is_vertex (rgof dec (rdb_run H enc dec h)) v -> is_vertex (rgof dec (rdb_run H enc dec (h ++ [x]))) v.
  Proof.
    intros G [N B] V. apply Forall_app in G as [G Gx]. apply Forall_cons_iff in Gx as [Gx _]. rewrite rdb_run_snoc.
    destruct (exec (rdb_ops H enc dec (fst x)) (rdb_run H enc dec h) (snd x)) as [r s'] eqn:E. cbn [snd].
    destruct (@rdb_effect H enc dec (fst x) h (snd x) r s' G Gx E) as [[_ ->]|(_ & _ & D & _)].
    2: { unfold is_vertex, rgof in *. cbn [gv] in *. now rewrite D. }
    clear E. generalize dependent (rgof dec (rdb_run H enc dec h)). intros g V.
    assert (forall v0 g, is_vertex g v -> is_vertex (g_create_vertex g v0) v) as CV.
    { intros v0 g0 V0. unfold g_create_vertex, is_vertex in *. destruct (mem (vid v0) (gv g0)) eqn:M; [assumption|]. cbn [gv]. rewrite get_set.
      destruct (eqb (vid v) (vid v0)) eqn:D; [|assumption]. apply eqb_eq in D. rewrite D in V0. apply mem_false in M. congruence. }
    destruct (snd x); cbn [request snd r_apply g_apply no_delete] in *; try contradiction; auto.
    - destruct (mem id (gv g)); cbn [snd r_apply g_apply]; auto.
    - unfold g_create_edge. now destruct (_ && _).
    - destruct (answer _ _ q) as [[]| |]; cbn [snd r_apply g_apply]; auto.
    - unfold r_bulk_insert. clear - V B. revert g V. induction items as [|it items IH]; intros g V; cbn [fold_left]; [assumption|].
      apply IH; [intros w I; apply B; now right|]. destruct it as [w|e|id n0 v0|e n0 v0]; cbn [r_bulk_item]; auto.
      unfold is_vertex in *. cbn [gv]. rewrite get_set. destruct (eqb (vid v) (vid w)) eqn:D; [|assumption].
      apply eqb_eq in D. rewrite (B w (or_introl eq_refl) (eq_sym D)). reflexivity.
  Qed.
  Definition rdb_adding (v : vertex) (h h' : list (renv * op)) : Prop := exists calls, h' = h ++ calls /\ Forall (fun x => spares v (snd x)) calls.
  Theorem C63_rdb_adding k t h start r v : good_history enc dec h ->
    scan (rdb_adding v) k (rdb_ask k t) h start r -> rdb_there h v -> type_ok t (vt v) -> ~ lt (vid v) start -> In v (concat (map snd r)).
  Proof.
    intros G0 Sc T Ty St. assert (scan rdb_later k (rdb_ask k t) h start r) as Sc'.
    { clear - Sc. induction Sc as [s s' start vs (c & -> & _) A L|s s' start vs last e (c & -> & _) A N|s s' start vs last next rest (c & -> & _) A N Sc IH].
      - apply scan_short; auto. now exists c.
      - eapply scan_max; eauto. now exists c.
      - eapply scan_more; eauto. now exists c. }
    destruct (C63_rdb_paging Sc') as (_ & _ & _ & All & _). apply All; auto.
    assert (forall s start r, scan (rdb_adding v) k (rdb_ask k t) s start r -> rdb_there s v -> good_history enc dec s -> forall s' vs, In (s', vs) r -> rdb_there s' v) as K.
    { clear - v. assert (forall s c, good_history enc dec (s ++ c) -> Forall (fun x => spares v (snd x)) c ->
        is_vertex (rgof dec (rdb_run H enc dec s)) v -> is_vertex (rgof dec (rdb_run H enc dec (s ++ c))) v) as Stay.
      { intros s c. induction c as [|x c IH] using rev_ind; intros G F V; [now rewrite app_nil_r|].
        apply Forall_app in F as [F Fx]. apply Forall_cons_iff in Fx as [Fx _]. rewrite app_assoc in *. apply rdb_stays; auto.
        apply IH; auto. apply Forall_app in G. apply G. }
      assert (forall s s' start vs, rdb_adding v s s' -> rdb_ask k t s' start vs -> good_history enc dec s -> rdb_there s v -> rdb_there s' v) as Step.
      { intros s s' start vs (c & -> & F) (G & _) G1 T. apply rdb_there_iff; [exact G|]. apply Stay; auto. now apply rdb_there_iff. }
      intros s start r Sc. induction Sc as [s s0 start vs La A L|s s0 start vs last e La A N|s s0 start vs last next rest La A N Sc IH]; intros T G s' vs' I.
      - destruct I as [I|[]]. inversion I; subst. eapply Step; eauto.
      - destruct I as [I|[]]. inversion I; subst. eapply Step; eauto.
      - pose proof (Step _ _ _ _ La A G T) as T'. destruct I as [I|I]; [inversion I; now subst|]. eapply IH; eauto. apply A. }
    exact (K _ _ _ Sc T G0).
  Qed.
End RdbScan.

(** ** A concrete case: pages of one vertex

    Two vertices; after the first page it is deleted again and a third one is
    created between the two. *)
Definition hp1 : list (order * op) := calls [OCreateVertex v1; OCreateVertex v3].
Definition hp2 : list (order * op) := hp1 ++ calls [ODelete (q_vertex u1); OCreateVertex v2].
Example C63_case : exists n1 n2 n3, next_uuid u1 = Ok n1 /\ next_uuid u2 = Ok n2 /\ next_uuid u3 = Ok n3 /\
  scan mem_later 1 (mem_ask false 1 None) hp1 u1 [(hp1, [] ++ [v1]); (hp2, [] ++ [v2]); (hp2, [] ++ [v3]); (hp2, [])] /\
  In v3 (concat (map snd [(hp1, [] ++ [v1]); (hp2, [] ++ [v2]); (hp2, [] ++ [v3]); (hp2, [])])).
Proof.
  destruct (next_uuid u1) as [n1| |] eqn:E1; try (vm_compute in E1; discriminate E1).
  destruct (next_uuid u2) as [n2| |] eqn:E2; try (vm_compute in E2; discriminate E2).
  destruct (next_uuid u3) as [n3| |] eqn:E3; try (vm_compute in E3; discriminate E3).
  exists n1, n2, n3. do 3 (split; [reflexivity|]).
  assert (exists m, mem_run false hp1 = Some m) as (m1 & R1) by (eexists; reflexivity).
  assert (exists m, mem_run false hp2 = Some m) as (m2 & R2) by (eexists; reflexivity).
  assert (forall h m start vs, mem_run false h = Some m ->
            match mem_run false h with Some m' => db_get (mem_ops false id_order) m' (QRangeVertex 1 None (Some start)) | None => Panic end = Ok [Vertices vs] ->
            mem_ask false 1 None h start vs) as A.
  { intros h m start vs R G. rewrite R in G. exists m, id_order. auto. }
  assert (scan mem_later 1 (mem_ask false 1 None) hp1 u1 [(hp1, [] ++ [v1]); (hp2, [] ++ [v2]); (hp2, [] ++ [v3]); (hp2, [])]) as Sc.
  { assert (n1 = match next_uuid u1 with Ok x => x | _ => u1 end) as D1 by now rewrite E1.
    assert (n2 = match next_uuid u2 with Ok x => x | _ => u1 end) as D2 by now rewrite E2.
    assert (n3 = match next_uuid u3 with Ok x => x | _ => u1 end) as D3 by now rewrite E3.
    eapply scan_more; [exists []; now rewrite app_nil_r|eapply A; [exact R1|reflexivity]|exact E1|].
    eapply scan_more; [eexists; reflexivity|eapply A; [exact R2|rewrite D1; reflexivity]|exact E2|].
    eapply scan_more; [exists []; now rewrite app_nil_r|eapply A; [exact R2|rewrite D2; reflexivity]|exact E3|].
    eapply scan_short; [exists []; now rewrite app_nil_r|eapply A; [exact R2|rewrite D3; reflexivity]|reflexivity]. }
  split; [exact Sc|].
  destruct (C63_mem_paging Sc) as (_ & _ & _ & All & _). apply All.
  - exact I.
  - vm_compute. discriminate.
  - assert (mem_there false hp1 v3 /\ mem_there false hp2 v3) as [T1 T2].
    { assert (forall h m, mem_run false h = Some m ->
         match mem_run false h with Some m' => db_get (mem_ops false id_order) m' (QSpecificVertex [vid v3]) | None => Panic end = Ok [Vertices [v3]] ->
         mem_there false h v3) as K.
      { intros h m R G. rewrite R in G. apply (@mem_there_iff false h m v3 R). exact (proj1 (shows_vertex v3 (@mem_shows false h m R id_order)) G). }
      split; [apply (K _ _ R1)|apply (K _ _ R2)]; reflexivity. }
    intros s vs [X|[X|[X|[X|[]]]]]; inversion X; subst; assumption.
Qed.

(** The same on RocksDB, where only vertices are added. *)
Definition hr1 : list (renv * op) := ok_calls [OCreateVertex v1; OCreateVertex v3].
Definition hr2 : list (renv * op) := hr1 ++ ok_calls [OCreateVertex v2; OBulkInsert [BVertex v3; BEdge e12]].
Example C63_rdb_case : exists r,
  scan (rdb_adding v3) 1 (rdb_ask hash0 enc0 dec0 1 None) hr1 u1 r /\ rdb_there hash0 enc0 dec0 hr1 v3 /\ good_history enc0 dec0 hr1 /\
  In v3 (concat (map snd r)) /\ length r = 4%nat.
Proof.
  exists [(hr1, [] ++ [v1]); (hr2, [] ++ [v2]); (hr2, [] ++ [v3]); (hr2, [])].
  destruct (next_uuid u1) as [n1| |] eqn:E1; try (vm_compute in E1; discriminate E1).
  destruct (next_uuid u2) as [n2| |] eqn:E2; try (vm_compute in E2; discriminate E2).
  destruct (next_uuid u3) as [n3| |] eqn:E3; try (vm_compute in E3; discriminate E3).
  assert (n1 = match next_uuid u1 with Ok x => x | _ => u1 end) as D1 by now rewrite E1.
  assert (n2 = match next_uuid u2 with Ok x => x | _ => u1 end) as D2 by now rewrite E2.
  assert (n3 = match next_uuid u3 with Ok x => x | _ => u1 end) as D3 by now rewrite E3.
  assert (good_history enc0 dec0 hr1) as G1 by good0. assert (good_history enc0 dec0 hr2) as G2 by good0.
  assert (forall h start vs, good_history enc0 dec0 h ->
            db_get (rdb_ops hash0 enc0 dec0 ok_env) (rdb_run hash0 enc0 dec0 h) (QRangeVertex 1 None (Some start)) = Ok [Vertices vs] ->
            rdb_ask hash0 enc0 dec0 1 None h start vs) as A by (intros h start vs G E; split; [assumption|now exists ok_env]).
  assert (scan (rdb_adding v3) 1 (rdb_ask hash0 enc0 dec0 1 None) hr1 u1 [(hr1, [] ++ [v1]); (hr2, [] ++ [v2]); (hr2, [] ++ [v3]); (hr2, [])]) as Sc.
  { eapply scan_more; [exists []; split; [now rewrite app_nil_r|constructor]|apply A; [exact G1|reflexivity]|exact E1|].
    eapply scan_more; [eexists; split; [reflexivity|]|apply A; [exact G2|rewrite D1; reflexivity]|exact E2|].
    { repeat constructor. intros w [X|[X|[]]] _; [now inversion X|discriminate]. }
    eapply scan_more; [exists []; split; [now rewrite app_nil_r|constructor]|apply A; [exact G2|rewrite D2; reflexivity]|exact E3|].
    eapply scan_short; [exists []; split; [now rewrite app_nil_r|constructor]|apply A; [exact G2|rewrite D3; reflexivity]|reflexivity]. }
  assert (rdb_there hash0 enc0 dec0 hr1 v3) as T by (intros env; reflexivity).
  split; [exact Sc|]. split; [exact T|]. split; [exact G1|]. split; [|reflexivity].
  apply (C63_rdb_adding G1 Sc T); [exact I|]. vm_compute. discriminate.
Qed.
