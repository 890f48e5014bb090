(** * C66: RocksDB reads that fail while other calls run

    C56 (PropsFault.v) says of one call at a time that it reports a failed read
    and changes nothing.  Here calls run concurrently (the programs of
    RdbProg.v), every read of every call may fail at any moment, and a call whose
    read failed leaves no trace: all the other calls return what they would have
    returned, and the database ends as it would have ended, had the failed call
    never looked at it.

    A failed read ends the call with RocksDB's error.  Simplification: an
    iterator that breaks off in the middle ends the call at once; the code first
    uses the items that came before, which in all calls but the two excluded here
    means more reads and no write (C56, RdbFaultStep.v).  Excluded are the counts of all
    vertices and edges, which take the error for an item (C56_rdb_count_refuted). *)
From Verif Require Import Base OMap Json Types Util Db Mem Rdb Spec QueryFacts SpecFacts QueryTrust JsonFacts UtilFacts
  MemFacts MemRefine MemHist KeyFacts RdbSpec RdbRep RdbWrite RdbPut RdbRefine RdbGraph RdbHist RdbCrash Stages Effects
  Claims PropsMem Examples PropsMemIndex PropsRdb PropsRdbIndex Conc RdbProg RdbAlone RdbConc RdbLive RdbConcInv RdbCalm RdbSched RdbSerial
  Foot RdbFoot RdbApart PropsFault PropsConc.

Set Implicit Arguments.
Local Open Scope nat_scope.

(** ** Executions with failing reads *)
Section Machine.
  Variable H : list byte -> N.
  Variable enc : json -> bytes.
  Variable dec : bytes -> option json.
  (** What can happen to writes. *)
  Variable E : renv -> Prop.
  Variable s : rstate.

  (** As [rreach] (RdbProg.v); at any moment the read a call is about to make may
      fail.  [fs]: the calls that met a failed read. *)
  Inductive freach : rconfig -> list nat -> Prop :=
  | FReach0 : freach (rconfig0 s) []
  | FReachS k k' fs : freach k fs -> rstep H enc dec k k' -> envs E k' -> freach k' fs
  | FReachF k fs t c e g f t0 o : freach k fs ->
      rc_threads k t = Running c e g (PDb f) -> In (Inv c t0 o) (rc_hist k) -> counts_all o = false ->
      freach (RConfig (rc_db k) (rc_ix k) (upd (rc_threads k) t (Running c e g (PRet (Err EDatastore)))) (rc_hist k) (rc_next k))
             (c :: fs).
End Machine.

(** ** Specification *)

(** The history without the calls [F]. *)
Definition not_of (F : nat -> bool) (x : event) : bool := match x with Inv c _ _ | Ret c _ => negb (F c) end.
Definition without (F : nat -> bool) (h : list event) : list event := filter (not_of F) h.

(** The calls [F] of a history that cannot have changed anything: they met a failed
    read, or they returned an error, or they only read; and none is
    [index_property] (which remembers the name before it reads). *)
Definition ineffective (F : nat -> bool) (fs : list nat) (h : list event) : Prop :=
  (forall c, In c fs -> F c = true) /\
  forall c t o, F c = true -> In (Inv c t o) h ->
    (forall n, o <> OIndexProperty n) /\
    (In c fs \/ (exists e, In (Ret c (Err e)) h) \/ exists q, o = OGet q).

(** The same history, where the calls [F] do nothing: they are [sync] calls. *)
Inductive as_sync (F : nat -> bool) : event -> event -> Prop :=
| As_same x : not_of F x = true -> as_sync F x x
| As_inv c t o : F c = true -> as_sync F (Inv c t o) (Inv c t OSync)
| As_ret c r r' : F c = true -> as_sync F (Ret c r) (Ret c r').

(** ** Programs *)
Fixpoint tidy {A} (w : bool) (p : prog A) : Prop :=
  match p with
  | PRet _ => True
  | PDb k => forall d, tidy w (k d)
  | PIx k => forall ix, tidy w (k ix)
  | PShared k => forall ix, tidy w (k ix)
  | PExcl _ | PSetIx _ _ => False
  | PWrite _ k => w = true /\ exists x, k = PRet (Ok x)
  end.

Lemma tidy_weak {A} (p : prog A) : tidy false p -> tidy true p.
Proof. induction p; cbn; auto. now intros [Hx _]. Qed.
Lemma tidy_bind {A B} w (p : prog A) (f : A -> prog B) : tidy false p -> (forall a, tidy w (f a)) -> tidy w (pbind p f).
Proof. intros Tp Tf. induction p as [x|k IH|k IH|k IH|k IH|ix2 k IH|b k IH]; cbn in *; auto; try contradiction; [destruct x; cbn; auto|now destruct Tp]. Qed.

Section Tidy.
  Variable H : list byte -> N.
  Variable enc : json -> bytes.
  Variable dec : bytes -> option json.

  Lemma t_rd {A} w (f : db -> outcome A) : tidy w (rd f).
  Proof. cbn. auto. Qed.
  Lemma t_ret {A} w (x : outcome A) : tidy w (PRet x).
  Proof. exact I. Qed.
  Local Hint Resolve t_rd t_ret tidy_bind : tidy.

  Ltac td := repeat first [ exact I | apply t_rd | progress intros | assumption
    | match goal with |- tidy _ (pbind _ _) => apply tidy_bind end
    | match goal with |- tidy _ (match ?x with _ => _ end) => destruct x end
    | match goal with |- tidy _ (if ?x then _ else _) => destruct x end ].

  Lemma t_sv ids : tidy false (p_specific_vertices H ids).
  Proof. induction ids; cbn [p_specific_vertices]; td. Qed.
  Lemma t_ex l : tidy false (p_existing H l).
  Proof. induction l as [|[x| |] l IH]; cbn [p_existing]; td. Qed.
  Lemma t_se es : tidy false (p_specific_edges H es).
  Proof. induction es; cbn [p_specific_edges]; td. Qed.
  Lemma t_vp n : tidy false (p_vertex_ids_with_property H n).
  Proof. intros ix. unfold pmap. td. apply t_ex. Qed.
  Lemma t_vv n v : tidy false (p_vertex_ids_with_property_value H n v).
  Proof. intros ix. unfold pmap. td. apply t_ex. Qed.
  Lemma t_ep n : tidy false (p_edges_with_property H n).
  Proof. intros ix. td. Qed.
  Lemma t_ev n v : tidy false (p_edges_with_property_value H n v).
  Proof. intros ix. td. Qed.
  Lemma t_ie {A} (p : prog (option (iter A))) : tidy false p -> tidy false (p_indexed_or_err p).
  Proof. intros T. unfold p_indexed_or_err. td. Qed.
  Lemma t_pv d l t vs : forall es, tidy false (p_pipe_vertices H d l t vs es).
  Proof. induction vs as [|v vs IH]; intros es; cbn [p_pipe_vertices]; td. apply IH. Qed.
  Lemma t_pe d l t es : tidy false (p_pipe_edges H d l t es).
  Proof. unfold p_pipe_edges. td. apply t_sv. Qed.
  Lemma t_pov name vs : tidy false (p_props_of_vertices H dec name vs).
  Proof. induction vs; cbn [p_props_of_vertices]; td. Qed.
  Lemma t_poe name es : tidy false (p_props_of_edges H dec name es).
  Proof. induction es; cbn [p_props_of_edges]; td. Qed.
  Lemma t_query q : forall out, tidy false (p_query H dec q out).
  Proof.
    induction q; intros out; cbn [p_query]; unfold pmap; td;
      auto using t_sv, t_se, t_pv, t_pe, t_pov, t_poe, t_ie, t_vp, t_vv, t_ep, t_ev.
  Qed.

  Lemma t_each {A} (l : list (outcome A)) f : (forall a, tidy false (f a)) -> tidy false (p_each l f).
  Proof. intros F. induction l; cbn [p_each]; td. apply F. Qed.
  Lemma t_vpd ix id n : tidy false (p_vprop_delete H dec ix id n).
  Proof. unfold p_vprop_delete. td. Qed.
  Lemma t_vps ix id n v : tidy false (p_vprop_set H enc dec ix id n v).
  Proof. unfold p_vprop_set. td. apply t_vpd. Qed.
  Lemma t_epd ix id n : tidy false (p_eprop_delete H dec ix id n).
  Proof. unfold p_eprop_delete. td. Qed.
  Lemma t_eps ix id n v : tidy false (p_eprop_set H enc dec ix id n v).
  Proof. unfold p_eprop_set. td. apply t_epd. Qed.
  Lemma t_ed ix e : tidy false (p_edge_delete H dec ix e).
  Proof. unfold p_edge_delete. td. apply t_each. intros. apply t_epd. Qed.
  Lemma t_vd ix id : tidy false (p_vertex_delete H dec ix id).
  Proof. unfold p_vertex_delete. td; apply t_each; intros; td; auto using t_vpd, t_ed. Qed.
  Lemma t_guarded f : (forall ix, tidy false (f ix)) -> tidy true (p_guarded f).
  Proof. intros F ix. apply tidy_bind; [apply F|]. intros b. cbn. eauto. Qed.

  Lemma t_cv {B} v (f : bool -> outcome B) : (exists x, f true = Ok x) -> tidy true (let! b := p_create_vertex H v in PRet (f b)).
  Proof. intros [x Ex]. cbn. intros d. destruct (vertex_exists _ _ _); cbn; auto. split; [reflexivity|]. exists x. now rewrite Ex. Qed.

  Lemma t_prog e o : (forall n, o <> OIndexProperty n) -> tidy (match o with OGet _ => false | _ => true end) (prog_of H enc dec e o).
  Proof.
    intros NI. destruct o; cbn [prog_of]; try (exfalso; now apply (NI name)).
    - apply (t_cv v (fun b => Ok (RBoolean b))). eauto.
    - apply (@t_cv res (Vertex id t) (fun b => if b then Ok (RUuid id) else Err UuidTaken)). eauto.
    - unfold pmap, p_create_edge, p_edge_set. cbn. intros d. destruct (vertex_exists H d (eout e0)); cbn; [|exact I]. intros d'.
      destruct (vertex_exists H d' (ein e0)); cbn; [|exact I]. intros _. split; [reflexivity|eauto].
    - td. apply t_query.
    - unfold p_delete. td; try apply tidy_weak, t_query; try apply t_query; apply t_guarded; intros; apply t_each; intros; td; auto using t_vd, t_ed, t_vpd, t_epd.
    - unfold p_set_properties. td; try apply t_query; apply t_guarded; intros; apply t_each; intros; auto using t_vps, t_eps.
    - apply t_guarded. intros ix. apply t_each. intros []; cbn; auto using t_vps, t_eps.
    - exact I.
    - apply t_guarded; intros; apply t_each; intros; apply t_vd.
    - apply t_guarded; intros; apply t_each; intros; td; apply t_ed.
    - apply t_guarded; intros; apply t_each; intros; apply t_vpd.
    - apply t_guarded; intros; apply t_each; intros; apply t_epd.
    - apply t_guarded; intros; apply t_each; intros; apply t_vps.
    - apply t_guarded; intros; apply t_each; intros; apply t_eps.
  Qed.
End Tidy.

(** ** Removing calls that cannot have changed anything *)
Section Sim.
  Variable H : list byte -> N.
  Variable enc : json -> bytes.
  Variable dec : bytes -> option json.
  Variable E : renv -> Prop.
  Variable s : rstate.
  Notation prog_of := (prog_of H enc dec).
  Notation freach := (freach H enc dec E s).
  Notation rreach := (rreach H enc dec E s).

  Definition not_index (o : op) : Prop := forall n, o <> OIndexProperty n.
  Definition writer (o : op) : bool := match o with OGet _ => false | _ => true end.

  (** [ws]: the calls that have changed something. *)
  Record finv (k : rconfig) (fs ws : list nat) : Prop := {
    v_run : forall t c e g p, rc_threads k t = Running c e g p -> exists o, In (Inv c t o) (rc_hist k) /\
      (forall r, ~ In (Ret c r) (rc_hist k)) /\
      (not_index o -> tidy (writer o) p /\ (In c ws -> exists x, p = PRet (Ok x))) /\
      (In c fs -> p = PRet (Err EDatastore));
    v_ws : forall c, In c ws -> exists t o, In (Inv c t o) (rc_hist k) /\
      (not_index o -> (forall q, o <> OGet q) /\
        ((exists t e g p, rc_threads k t = Running c e g p) \/ exists x, In (Ret c (Ok x)) (rc_hist k)));
    v_fs : forall c, In c fs -> (exists t e g p, rc_threads k t = Running c e g p) \/ In (Ret c (Err EDatastore)) (rc_hist k);
    v_lt : forall c t o, In (Inv c t o) (rc_hist k) -> c < rc_next k;
    v_one : forall c t o t' o', In (Inv c t o) (rc_hist k) -> In (Inv c t' o') (rc_hist k) -> t = t' /\ o = o';
    v_ret : forall c r, In (Ret c r) (rc_hist k) -> c < rc_next k;
    v_ret1 : forall c r r', In (Ret c r) (rc_hist k) -> In (Ret c r') (rc_hist k) -> r = r' }.

  Lemma finv0 : finv (rconfig0 s) [] [].
  Proof. constructor; cbn; intros; try contradiction; discriminate. Qed.

  Lemma finv_move k fs ws fs' ws' d ix t c e g p g' p' :
    finv k fs ws -> rc_threads k t = Running c e g p ->
    (forall c', In c' fs' -> In c' fs \/ c' = c) -> (In c fs' -> p' = PRet (Err EDatastore)) ->
    (forall c', In c' ws' -> In c' ws \/ c' = c) ->
    (forall o, In (Inv c t o) (rc_hist k) -> not_index o ->
       tidy (writer o) p' /\ (In c ws' -> (forall q, o <> OGet q) /\ exists x, p' = PRet (Ok x))) ->
    finv (RConfig d ix (upd (rc_threads k) t (Running c e g' p')) (rc_hist k) (rc_next k)) fs' ws'.
  Proof.
    intros V Tk Hfs Hf Hws Hp. destruct V as [V1 V2 V3 V4 V5 V6 V7].
    destruct (V1 _ _ _ _ _ Tk) as (o & Io & No & _ & _).
    assert (forall t' c' e2 g2 p2, rc_threads k t' = Running c' e2 g2 p2 -> c' = c -> t' = t) as U.
    { intros t' c' e2 g2 p2 T2 ->. destruct (V1 _ _ _ _ _ T2) as (o2 & I2 & _). exact (proj1 (V5 _ _ _ _ _ I2 Io)). }
    assert (forall c', c' <> c -> (exists t e g p, rc_threads k t = Running c' e g p) ->
      exists t2 e2 g2 p2, upd (rc_threads k) t (Running c e g' p') t2 = Running c' e2 g2 p2) as Keep.
    { intros c' Ne (t2 & e2 & g2 & p2 & T2). exists t2, e2, g2, p2. destruct (@upd_case _ (rc_threads k) t (Running c e g' p') t2) as [[-> _]|[_ ->]]; [|exact T2].
      rewrite Tk in T2. congruence. }
    constructor; cbn [rc_threads rc_hist rc_next]; auto.
    - intros t2 c2 e2 g2 p2 T2. destruct (@upd_case _ (rc_threads k) t (Running c e g' p') t2) as [[-> E2]|[Ne E2]]; rewrite E2 in T2.
      + inversion T2; subst. exists o. conj; auto. intros NI. destruct (Hp _ Io NI) as [A B]. split; [exact A|]. intros W. exact (proj2 (B W)).
      + destruct (V1 _ _ _ _ _ T2) as (o2 & I2 & N2 & A2 & B2). exists o2. conj; auto.
        * intros NI. destruct (A2 NI) as [A3 A4]. split; [exact A3|]. intros W. destruct (Hws _ W) as [W'|Ec]; [auto|]. now destruct (Ne (U _ _ _ _ _ T2 Ec)).
        * intros W. destruct (Hfs _ W) as [W'|Ec]; [auto|]. now destruct (Ne (U _ _ _ _ _ T2 Ec)).
    - intros c' W. destruct (Nat.eq_dec c' c) as [->|Ne].
      + exists t, o. split; [exact Io|]. intros NI. destruct (Hp _ Io NI) as [_ B]. split; [exact (proj1 (B W))|]. left. exists t, e, g', p'. apply upd_eq.
      + destruct (Hws _ W) as [W'|]; [|congruence]. destruct (V2 _ W') as (t2 & o2 & I2 & A2). exists t2, o2. split; [exact I2|]. intros NI.
        destruct (A2 NI) as [A3 [A4|A4]]; auto.
    - intros c' W. destruct (Nat.eq_dec c' c) as [->|Ne]; [left; exists t, e, g', p'; apply upd_eq|].
      destruct (Hfs _ W) as [W'|]; [|congruence]. destruct (V3 _ W') as [A|A]; auto.
  Qed.

  Lemma finv_invoke k fs ws t e o : finv k fs ws -> rc_threads k t = RIdle ->
    finv (RConfig (rc_db k) (rc_ix k) (upd (rc_threads k) t (Running (rc_next k) e GNone (prog_of e o)))
            (rc_hist k ++ [Inv (rc_next k) t o]) (S (rc_next k))) fs ws.
  Proof.
    intros V Tk. assert (forall c, In c ws -> c < rc_next k) as Lw by (intros c W; destruct (v_ws V _ W) as (t2 & o2 & I2 & _); exact (v_lt V _ _ _ I2)).
    assert (forall c, In c fs -> c < rc_next k) as Lf.
    { intros c W. destruct (v_fs V _ W) as [(t2 & e2 & g2 & p2 & T2)|R]; [|exact (v_ret V _ _ R)]. destruct (v_run V _ T2) as (o2 & I2 & _). exact (v_lt V _ _ _ I2). }
    destruct V as [V1 V2 V3 V4 V5 V6 V7].
    assert (forall c, (exists t e g p, rc_threads k t = Running c e g p) ->
      exists t2 e2 g2 p2, upd (rc_threads k) t (Running (rc_next k) e GNone (prog_of e o)) t2 = Running c e2 g2 p2) as Keep.
    { intros c (t2 & e2 & g2 & p2 & T2). exists t2, e2, g2, p2. destruct (@upd_case _ (rc_threads k) t (Running (rc_next k) e GNone (prog_of e o)) t2) as [[-> _]|[_ ->]]; congruence. }
    constructor; cbn [rc_threads rc_hist rc_next].
    - intros t2 c2 e2 g2 p2 T2. destruct (@upd_case _ (rc_threads k) t (Running (rc_next k) e GNone (prog_of e o)) t2) as [[-> E2]|[Ne E2]]; rewrite E2 in T2.
      + injection T2 as <- <- <- <-. exists o. conj.
        * apply in_or_app. right. now left.
        * intros r R. apply in_app_or in R as [R|[R|[]]]; [apply V6 in R; lia|discriminate R].
        * intros NI. split; [|intros W; apply Lw in W; lia]. pose proof (@t_prog H enc dec e o NI) as T. now destruct o.
        * intros W. apply Lf in W. lia.
      + destruct (V1 _ _ _ _ _ T2) as (o2 & I2 & N2 & A2). exists o2. conj; try apply A2.
        * apply in_or_app. now left.
        * intros r R. apply in_app_or in R as [R|[R|[]]]; [exact (N2 _ R)|discriminate R].
    - intros c W. destruct (V2 _ W) as (t2 & o2 & I2 & A2). exists t2, o2. split; [apply in_or_app; now left|]. intros NI. destruct (A2 NI) as [A3 [A4|(x & A4)]]; split; auto.
      right. exists x. apply in_or_app. now left.
    - intros c W. destruct (V3 _ W) as [A|A]; [left; auto|right; apply in_or_app; now left].
    - intros c t2 o2 I2. apply in_app_or in I2 as [I2|[I2|[]]]; [apply V4 in I2; lia|inversion I2; lia].
    - intros c t2 o2 t3 o3 I2 I3. apply in_app_or in I2 as [I2|[I2|[]]]; apply in_app_or in I3 as [I3|[I3|[]]].
      + eauto.
      + inversion I3; subst. apply V4 in I2. lia.
      + inversion I2; subst. apply V4 in I3. lia.
      + inversion I2; inversion I3; subst. auto.
    - intros c r R. apply in_app_or in R as [R|[R|[]]]; [apply V6 in R; lia|discriminate R].
    - intros c r r' R R'. apply in_app_or in R as [R|[R|[]]]; [|discriminate R]. apply in_app_or in R' as [R'|[R'|[]]]; [eauto|discriminate R'].
  Qed.

  Lemma finv_return k fs ws t c e g r : finv k fs ws -> rc_threads k t = Running c e g (PRet r) ->
    finv (RConfig (rc_db k) (rc_ix k) (upd (rc_threads k) t RIdle) (rc_hist k ++ [Ret c r]) (rc_next k)) fs ws.
  Proof.
    intros V Tk. destruct V as [V1 V2 V3 V4 V5 V6 V7]. destruct (V1 _ _ _ _ _ Tk) as (o & Io & No & Ao & Bo).
    assert (forall t' c' e2 g2 p2, rc_threads k t' = Running c' e2 g2 p2 -> c' = c -> t' = t) as U.
    { intros t' c' e2 g2 p2 T2 ->. destruct (V1 _ _ _ _ _ T2) as (o2 & I2 & _). exact (proj1 (V5 _ _ _ _ _ I2 Io)). }
    assert (forall c', c' <> c -> (exists t e g p, rc_threads k t = Running c' e g p) ->
      exists t2 e2 g2 p2, upd (rc_threads k) t RIdle t2 = Running c' e2 g2 p2) as Keep.
    { intros c' Ne (t2 & e2 & g2 & p2 & T2). exists t2, e2, g2, p2. destruct (@upd_case _ (rc_threads k) t RIdle t2) as [[-> _]|[_ ->]]; [|exact T2].
      rewrite Tk in T2. congruence. }
    constructor; cbn [rc_threads rc_hist rc_next].
    - intros t2 c2 e2 g2 p2 T2. destruct (@upd_case _ (rc_threads k) t RIdle t2) as [[-> E2]|[Ne E2]]; rewrite E2 in T2; [discriminate T2|].
      destruct (V1 _ _ _ _ _ T2) as (o2 & I2 & N2 & A2). exists o2. conj; try apply A2; [apply in_or_app; now left|].
      intros r2 R. apply in_app_or in R as [R|[R|[]]]; [exact (N2 _ R)|]. injection R as <- <-. exact (Ne (U _ _ _ _ _ T2 eq_refl)).
    - intros c' W. destruct (V2 _ W) as (t2 & o2 & I2 & A2). exists t2, o2. split; [apply in_or_app; now left|]. intros NI. destruct (A2 NI) as [A3 A4]. split; [exact A3|].
      destruct (Nat.eq_dec c' c) as [->|Ne].
      + right. destruct (V5 _ _ _ _ _ I2 Io) as [_ ->]. destruct (Ao NI) as [_ X]. destruct (X W) as (x & Ex). injection Ex as ->. exists x. apply in_or_app. right. now left.
      + destruct A4 as [A4|(x & A4)]; [left; auto|right; exists x; apply in_or_app; now left].
    - intros c' W. destruct (Nat.eq_dec c' c) as [->|Ne].
      + right. specialize (Bo W). injection Bo as ->. apply in_or_app. right. now left.
      + destruct (V3 _ W) as [A|A]; [left; auto|right; apply in_or_app; now left].
    - intros c' t2 o2 I2. apply in_app_or in I2 as [I2|[I2|[]]]; [eauto|discriminate I2].
    - intros c' t2 o2 t3 o3 I2 I3. apply in_app_or in I2 as [I2|[I2|[]]]; [|discriminate I2]. apply in_app_or in I3 as [I3|[I3|[]]]; [eauto|discriminate I3].
    - intros c' r2 R. apply in_app_or in R as [R|[R|[]]]; [eauto|]. injection R as <- _. exact (V4 _ _ _ Io).
    - intros c' r2 r3 R R'. apply in_app_or in R as [R|[R|[]]]; apply in_app_or in R' as [R'|[R'|[]]]; eauto.
      + injection R' as <- <-. now destruct (No _ R).
      + injection R as <- <-. now destruct (No _ R').
      + congruence.
  Qed.

  (** *** The execution without them *)
  Definition trel (F : nat -> bool) (x x' : rthread) : Prop :=
    match x with
    | RIdle => x' = RIdle
    | Running c e g p => if F c then x' = Running c e GNone (prog_of e OSync) else x' = Running c e g p
    end.
  Record sim (F : nat -> bool) (k k' : rconfig) : Prop := {
    m_db : rc_db k' = rc_db k; m_ix : rc_ix k' = rc_ix k; m_next : rc_next k' = rc_next k;
    m_hist : Forall2 (as_sync F) (rc_hist k) (rc_hist k');
    m_thr : forall t, trel F (rc_threads k t) (rc_threads k' t) }.

  Lemma sim_envs F k k' : sim F k k' -> envs E k -> envs E k'.
  Proof.
    intros M V t c e g p T. pose proof (m_thr M t) as X. destruct (rc_threads k t) as [|c1 e1 g1 p1] eqn:T1; cbn in X; [congruence|].
    destruct (F c1); rewrite X in T; inversion T; subst; eapply V; eauto.
  Qed.
  Lemma sim_holds F k k' g : sim F k k' -> g <> GNone -> (forall t, ~ holds (rc_threads k t) g) -> forall t, ~ holds (rc_threads k' t) g.
  Proof.
    intros M Ng N t (c & e & p & T). pose proof (m_thr M t) as X. destruct (rc_threads k t) as [|c1 e1 g1 p1] eqn:T1; cbn in X; [congruence|].
    destruct (F c1); rewrite X in T; inversion T; subst; [congruence|]. apply (N t). rewrite T1. now exists c, e, p.
  Qed.
  Lemma sim_upd F k k' d ix t x x' h h' n : sim F k k' -> trel F x x' -> Forall2 (as_sync F) h h' ->
    sim F (RConfig d ix (upd (rc_threads k) t x) h n) (RConfig d ix (upd (rc_threads k') t x') h' n).
  Proof.
    intros M R Fh. constructor; cbn; auto. intros t'. unfold upd. destruct (t' =? t); [exact R|apply (m_thr M)].
  Qed.
  Lemma sim_stutter F k k' t c e g p g' p' : sim F k k' -> F c = true -> rc_threads k t = Running c e g p ->
    sim F (RConfig (rc_db k) (rc_ix k) (upd (rc_threads k) t (Running c e g' p')) (rc_hist k) (rc_next k)) k'.
  Proof.
    intros M Fc T. destruct M as [M1 M2 M3 M4 M5]. constructor; cbn; auto. intros t'. unfold upd. destruct (Nat.eqb_spec t' t) as [->|]; [|apply M5].
    specialize (M5 t). rewrite T in M5. cbn in *. now rewrite Fc in *.
  Qed.

  Theorem simulation k fs : freach k fs -> exists ws, finv k fs ws /\
    forall F, (forall c, In c fs -> F c = true) -> (forall c, In c ws -> F c = false) -> exists k', rreach k' /\ sim F k k'.
  Proof.
    induction 1 as [|k k' fs R (ws & V & Sm) St En|k fs t c e g f t0 o R (ws & V & Sm) Tk I0 C0].
    - exists []. split; [apply finv0|]. intros F _ _. exists (rconfig0 s). split; [constructor|]. constructor; cbn; auto.
    - (* a step of a call [c] that makes no change *)
      assert (forall t c e g p g' p', rc_threads k t = Running c e g p ->
        k' = RConfig (rc_db k) (rc_ix k) (upd (rc_threads k) t (Running c e g' p')) (rc_hist k) (rc_next k) ->
        is_ret p = false -> (forall w, tidy w p -> tidy w p') ->
        (forall F q, sim F k q -> F c = false -> rstep H enc dec q (RConfig (rc_db q) (rc_ix q) (upd (rc_threads q) t (Running c e g' p')) (rc_hist q) (rc_next q))) ->
        exists ws0, finv k' fs ws0 /\ forall F, (forall c, In c fs -> F c = true) -> (forall c, In c ws0 -> F c = false) -> exists q, rreach q /\ sim F k' q) as Read.
      { intros t c e g p g' p' Tk Ek Ir Ti Sp. exists ws. split.
        - rewrite Ek. eapply (@finv_move k fs ws fs ws _ _ t c e g p); eauto.
          + intros W. destruct (v_run V _ Tk) as (o & _ & _ & _ & B). rewrite (B W) in Ir. discriminate Ir.
          + intros o Io NI. destruct (v_run V _ Tk) as (o2 & I2 & _ & A & _). destruct (v_one V _ _ _ _ _ Io I2) as [_ ->]. destruct (A NI) as [A1 A2].
            split; [now apply Ti|]. intros W. destruct (A2 W) as (x & ->). discriminate Ir.
        - intros F Ff Fw. destruct (Sm F Ff Fw) as (q & Rq & Mq). destruct (F c) eqn:Fc.
          + exists q. split; [exact Rq|]. rewrite Ek. now apply (@sim_stutter F k q t c e g p).
          + assert (sim F k' (RConfig (rc_db q) (rc_ix q) (upd (rc_threads q) t (Running c e g' p')) (rc_hist q) (rc_next q))) as M.
            { rewrite Ek, (m_db Mq), (m_ix Mq), (m_next Mq). apply sim_upd; [exact Mq|cbn; now rewrite Fc|apply (m_hist Mq)]. }
            eexists. split; [|exact M]. eapply RReachS; [exact Rq|exact (Sp F q Mq Fc)|exact (sim_envs M En)]. }
      assert (forall F q t c e g p, sim F k q -> F c = false -> rc_threads k t = Running c e g p -> rc_threads q t = Running c e g p) as Same.
      { intros F q t c e g p M Fc T. pose proof (m_thr M t) as X. rewrite T in X. cbn in X. now rewrite Fc in X. }
      (* a step of a call [c] that changes something *)
      assert (forall t c e g p d ix p', rc_threads k t = Running c e g p ->
        k' = RConfig d ix (upd (rc_threads k) t (Running c e g p')) (rc_hist k) (rc_next k) ->
        is_ret p = false -> (forall w, tidy w p -> w = true /\ exists x, p' = PRet (Ok x)) ->
        (forall F q, sim F k q -> F c = false -> rstep H enc dec q (RConfig d ix (upd (rc_threads q) t (Running c e g p')) (rc_hist q) (rc_next q))) ->
        exists ws0, finv k' fs ws0 /\ forall F, (forall c, In c fs -> F c = true) -> (forall c, In c ws0 -> F c = false) -> exists q, rreach q /\ sim F k' q) as Change.
      { intros t c e g p d ix p' Tk Ek Ir Ti Sp. exists (c :: ws). split.
        - rewrite Ek. eapply (@finv_move k fs ws fs (c :: ws) _ _ t c e g p); eauto.
          + intros W. destruct (v_run V _ Tk) as (o & _ & _ & _ & B). rewrite (B W) in Ir. discriminate Ir.
          + intros c' [<-|W]; auto.
          + intros o Io NI. destruct (v_run V _ Tk) as (o2 & I2 & _ & A & _). destruct (v_one V _ _ _ _ _ Io I2) as [_ ->]. destruct (A NI) as [A1 A2].
            destruct (Ti _ A1) as (Wo & x & ->). split; [exact I|]. intros _. split; [|eauto]. intros q ->. discriminate Wo.
        - intros F Ff Fw. assert (F c = false) as Fc by (apply Fw; now left).
          destruct (Sm F Ff (fun c W => Fw c (or_intror W))) as (q & Rq & Mq).
          assert (sim F k' (RConfig d ix (upd (rc_threads q) t (Running c e g p')) (rc_hist q) (rc_next q))) as M.
          { rewrite Ek, (m_next Mq). apply sim_upd; [exact Mq|cbn; now rewrite Fc|apply (m_hist Mq)]. }
          eexists. split; [|exact M]. eapply RReachS; [exact Rq|exact (Sp F q Mq Fc)|exact (sim_envs M En)]. }
      assert (exists kk, kk = k') as (kk & Ekk) by eauto. rewrite <- Ekk in St.
      inversion St as [k0 t e o Tk|k0 t c e g f Tk|k0 t c e g f Tk N|k0 t c e g f Tk N|k0 t c e g f Tk N N'|k0 t c e g ix p Tk|k0 t c e g b p Tk Wk|k0 t c e g b p Tk Wk|k0 t c e g r Tk]; subst k0;
        match goal with EQ : _ = kk |- _ => rewrite Ekk in EQ; symmetry in EQ; rename EQ into Ek end.
      + exists ws. split; [rewrite Ek; now apply finv_invoke|]. intros F Ff Fw. destruct (Sm F Ff Fw) as (q & Rq & Mq).
        set (o' := if F (rc_next k) then OSync else o).
        assert (sim F k' (RConfig (rc_db q) (rc_ix q) (upd (rc_threads q) t (Running (rc_next q) e GNone (prog_of e o'))) (rc_hist q ++ [Inv (rc_next q) t o']) (S (rc_next q)))) as M.
        { rewrite Ek, (m_db Mq), (m_ix Mq), (m_next Mq). apply sim_upd; [exact Mq| |].
          - unfold o'. cbn [trel]. destruct (F (rc_next k)); reflexivity.
          - apply Forall2_app; [apply (m_hist Mq)|]. constructor; [|constructor]. unfold o'. destruct (F (rc_next k)) eqn:Fn; constructor; cbn; now rewrite ?Fn. }
        eexists. split; [|exact M]. eapply RReachS; [exact Rq| |exact (sim_envs M En)]. apply RInvoke.
        pose proof (m_thr Mq t) as X. now rewrite Tk in X.
      + apply (Read _ _ _ _ _ _ _ Tk Ek); [reflexivity|intros w0; cbn; auto|]. intros F q Mq Fc. rewrite <- (m_db Mq). apply RRead. eauto.
      + apply (Read _ _ _ _ _ _ _ Tk Ek); [reflexivity|intros w0; cbn; auto|]. intros F q Mq Fc. rewrite <- (m_ix Mq). apply RIndexed; [eauto|]. eapply sim_holds; eauto; discriminate.
      + apply (Read _ _ _ _ _ _ _ Tk Ek); [reflexivity|intros w0; cbn; auto|]. intros F q Mq Fc. rewrite <- (m_ix Mq). eapply RShared; [eauto|]. eapply sim_holds; eauto; discriminate.
      + apply (Read _ _ _ _ _ _ _ Tk Ek); [reflexivity|intros w0 []|]. intros F q Mq Fc. rewrite <- (m_ix Mq). eapply RExcl; [eauto| |]; eapply sim_holds; eauto; discriminate.
      + apply (Change _ _ _ _ _ _ _ _ Tk Ek); [reflexivity|intros w0 []|]. intros F q Mq Fc. rewrite <- (m_db Mq). apply RSetIx. eauto.
      + apply (Change _ _ _ _ _ _ _ _ Tk Ek); [reflexivity|auto|]. intros F q Mq Fc. rewrite <- (m_db Mq), <- (m_ix Mq). apply RWrite; eauto.
      + apply (Read _ _ _ _ _ _ _ Tk Ek); [reflexivity|intros w0 _; exact I|]. intros F q Mq Fc. eapply RFail; eauto.
      + exists ws. split; [rewrite Ek; now apply finv_return with (e := e) (g := g)|]. intros F Ff Fw. destruct (Sm F Ff Fw) as (q & Rq & Mq).
        assert (exists g' r', rc_threads q t = Running c e g' (PRet r') /\ (F c = false -> r' = r)) as (g' & r' & Tq & Er).
        { pose proof (m_thr Mq t) as X. rewrite Tk in X. cbn in X. destruct (F c); [eexists; eexists; split; [exact X|discriminate]|eauto]. }
        assert (sim F k' (RConfig (rc_db q) (rc_ix q) (upd (rc_threads q) t RIdle) (rc_hist q ++ [Ret c r']) (rc_next q))) as M.
        { rewrite Ek, (m_db Mq), (m_ix Mq), (m_next Mq). apply sim_upd; [exact Mq|reflexivity|].
          apply Forall2_app; [apply (m_hist Mq)|]. constructor; [|constructor]. destruct (F c) eqn:Fc; [now constructor|rewrite (Er eq_refl); constructor; cbn; now rewrite Fc]. }
        eexists. split; [|exact M]. eapply RReachS; [exact Rq| |exact (sim_envs M En)]. eapply RReturn. exact Tq.
    - exists ws. split.
      + eapply (@finv_move k fs ws (c :: fs) ws _ _ t c e g (PDb f)); eauto.
        * intros c' [<-|W]; auto.
        * intros o2 I2 NI. destruct (v_run V _ Tk) as (o3 & I3 & _ & A & _). destruct (v_one V _ _ _ _ _ I2 I3) as [_ ->]. destruct (A NI) as [A1 A2].
          split; [exact I|]. intros W. destruct (A2 W) as (x & Ex). discriminate Ex.
      + intros F Ff Fw. destruct (Sm F (fun c W => Ff c (or_intror W)) Fw) as (q & Rq & Mq). exists q. split; [exact Rq|].
        apply (@sim_stutter F k q t c e g (PDb f)); auto. apply Ff. now left.
  Qed.
End Sim.

(** ** The theorems *)
Lemma before_filter {A} (p : A -> bool) l x y : before (filter p l) x y -> before l x y.
Proof.
  intros (l1 & l2 & l3 & Eq). revert l1 Eq. induction l as [|a l IH]; intros l1 Eq; cbn [filter] in Eq; [destruct l1; discriminate Eq|].
  destruct (p a) eqn:Pa.
  - destruct l1 as [|b l1]; cbn [app] in Eq; inversion Eq; subst.
    + assert (In y l) as Iy by (apply (proj1 (filter_In p y l)); rewrite H1; apply in_or_app; right; now left).
      apply in_split in Iy as (m1 & m2 & ->). now exists [], m1, m2.
    + destruct (IH l1 H1) as (m1 & m2 & m3 & ->). now exists (b :: m1), m2, m3.
  - destruct (IH _ Eq) as (m1 & m2 & m3 & ->). now exists (a :: m1), m2, m3.
Qed.
Lemma before_kept {A} (p : A -> bool) l x y : before l x y -> p x = true -> p y = true -> before (filter p l) x y.
Proof.
  intros (l1 & l2 & l3 & ->) Px Py. rewrite filter_app. cbn [filter]. rewrite Px, filter_app. cbn [filter]. rewrite Py. now eexists _, _, _.
Qed.
Lemma before_related {A B} (R : A -> B -> Prop) l l' x y : Forall2 R l l' -> before l x y -> exists x' y', R x x' /\ R y y' /\ before l' x' y'.
Proof.
  intros F (l1 & l2 & l3 & ->). apply Forall2_app_inv_l in F as (m1 & m & _ & F & ->). inversion F as [|? x' ? m' Rx F']; subst.
  apply Forall2_app_inv_l in F' as (m2 & m0 & _ & F2 & ->). inversion F2 as [|? y' ? m3 Ry _]; subst.
  exists x', y'. conj; auto. now exists m1, m2, m3.
Qed.

Lemma related_in {A B} (R : A -> B -> Prop) l l' x : Forall2 R l l' -> In x l -> exists y, In y l' /\ R x y.
Proof.
  induction 1 as [|a b l l' Rab F IH]; [intros []|]. intros [->|I]; [exists b; split; [now left|exact Rab]|].
  destruct (IH I) as (y & Iy & Ry). exists y. split; [now right|exact Ry].
Qed.

Section Theorems.
  Variable H : list byte -> N.
  Variable enc : json -> bytes.
  Variable dec : bytes -> option json.
  Variable E : renv -> Prop.
  Notation step := (rdb_step H enc dec).
  Notation freach := (freach H enc dec E).
  Notation rreach := (rreach H enc dec E).

  (** A call whose read failed returns RocksDB's error, whatever else happens. *)
  Theorem C66_reported s k fs c r : freach s k fs -> In c fs -> In (Ret c r) (rc_hist k) -> r = Err EDatastore.
  Proof.
    intros R Ic Rc. destruct (simulation R) as (ws & V & _). destruct (v_fs V _ Ic) as [(t & e & g & p & T)|A]; [|exact (v_ret1 V _ _ _ Rc A)].
    destruct (v_run V _ T) as (o & _ & N & _). now destruct (N _ Rc).
  Qed.

  (** Whatever was going on, calls that met a failed read, returned an error or
      only read leave no trace: there is an execution without failing reads in
      which they do nothing, all the other calls return the same, and the database
      ends the same. *)
  Theorem C66_no_trace s k fs F : freach s k fs -> ineffective F fs (rc_hist k) ->
    exists k', rreach s k' /\ rc_db k' = rc_db k /\ rc_ix k' = rc_ix k /\
      Forall2 (as_sync F) (rc_hist k) (rc_hist k') /\
      ((forall t, rc_threads k t = RIdle) -> forall t, rc_threads k' t = RIdle).
  Proof.
    intros R [If Ie]. destruct (simulation R) as (ws & V & Sm).
    destruct (Sm F If) as (k' & R' & M).
    - intros c W. destruct (F c) eqn:Fc; [exfalso|reflexivity]. destruct (v_ws V _ W) as (t & o & Io & A). destruct (Ie _ _ _ Fc Io) as (NI & B).
      destruct (A NI) as (NG & C). destruct B as [B|[(e & B)|(q & B)]]; [| |exact (NG q B)].
      + destruct (v_fs V _ B) as [(t1 & e1 & g1 & p1 & T1)|B1].
        * destruct (v_run V _ T1) as (o1 & I1 & _ & A1 & F1). destruct (v_one V _ _ _ _ _ Io I1) as [_ <-]. destruct (A1 NI) as [_ A2].
          destruct (A2 W) as (x & Ex). rewrite (F1 B) in Ex. discriminate Ex.
        * destruct C as [(t1 & e1 & g1 & p1 & T1)|(x & C)].
          -- destruct (v_run V _ T1) as (o1 & _ & N1 & _). exact (N1 _ B1).
          -- pose proof (v_ret1 V _ _ _ B1 C) as X. discriminate X.
      + destruct C as [(t1 & e1 & g1 & p1 & T1)|(x & C)].
        * destruct (v_run V _ T1) as (o1 & _ & N1 & _). exact (N1 _ B).
        * pose proof (v_ret1 V _ _ _ B C) as X. discriminate X.
    - exists k'. conj; [exact R'|apply M|apply M|apply M|]. intros Id t. pose proof (m_thr M t) as X. now rewrite Id in X.
  Qed.

  (** What holds of the stored data at every moment of every execution without
      failing reads holds with them, as long as none of the failing calls is
      [index_property]. *)
  Theorem C66_database s k fs (P : db -> oset ident -> Prop) : (forall k', rreach s k' -> P (rc_db k') (rc_ix k')) ->
    freach s k fs -> (forall c t n, In c fs -> ~ In (Inv c t (OIndexProperty n)) (rc_hist k)) -> P (rc_db k) (rc_ix k).
  Proof.
    intros HP R NI. destruct (@C66_no_trace s k fs (fun c => existsb (Nat.eqb c) fs) R) as (k' & R' & <- & <- & _); [|auto].
    assert (forall c, existsb (Nat.eqb c) fs = true <-> In c fs) as X.
    { intros c. rewrite existsb_exists. split; [intros (x & I & Ex); apply Nat.eqb_eq in Ex; now subst|intros I; exists c; split; [exact I|apply Nat.eqb_refl]]. }
    split; [intros c I; now apply X|]. intros c t o Fc Io. apply X in Fc. split; [|now left]. intros n ->. exact (NI _ _ _ Fc Io).
  Qed.

  (** Calls overlapping in time do not interfere, those that fail apart. *)
  Definition apart_but (F : nat -> bool) (h : list event) : Prop :=
    forall c t o c' t' o', In (Inv c t o) h -> In (Inv c' t' o') h -> c <> c' ->
      (exists r, before h (Ret c r) (Inv c' t' o')) \/ (exists r, before h (Ret c' r) (Inv c t o)) \/
      (not_index o /\ not_index o' /\ (F c = true \/ F c' = true \/ apart o o')).

  (** Linearizability of all the other calls (C28_rdb_apart_partial): the calls
      [F] may interfere with anything. *)
  Theorem C66_linearizable_partial h k fs F : freach (rdb_run H enc dec h) k fs ->
    ineffective F fs (rc_hist k) -> apart_but F (rc_hist k) ->
    exists s', linearizable step (rdb_run H enc dec h) (without F (rc_hist k)) s' /\
      ((forall t, rc_threads k t = RIdle) -> r_db s' = rc_db k /\ r_indexed s' = rc_ix k).
  Proof.
    intros R Ie A. destruct (C66_no_trace R Ie) as (k' & R' & Ed & Ei & Fh & Id).
    assert (forall c t o', In (Inv c t o') (rc_hist k') -> exists o, In (Inv c t o) (rc_hist k) /\ o' = if F c then OSync else o) as Back.
    { clear -Fh. intros c t o' I. revert I. induction Fh as [|x y h h' Rx Fh IH]; [intros []|]. intros [->|I].
      - inversion Rx as [z Nz|c2 t2 o2 F2|c2 r2 r2' F2]; subst.
        + exists o'. split; [now left|]. cbn in Nz. destruct (F c); [discriminate Nz|reflexivity].
        + exists o2. split; [now left|]. now rewrite F2.
      - destruct (IH I) as (o & Io & ->). exists o. split; [now right|reflexivity]. }
    assert (forall x y, as_sync F x y -> not_of F x = true -> y = x) as Fix_.
    { intros x y Rx Nx. inversion Rx; subst; auto; cbn in Nx; rewrite ?H0, ?H1 in Nx; try discriminate Nx. }
    assert (forall c t o x, as_sync F (Inv c t o) x -> x = Inv c t (if F c then OSync else o)) as RI.
    { intros c t o x Rx. inversion Rx as [z Nz|c2 t2 o2 F2|]; subst; [cbn in Nz; destruct (F c); [discriminate Nz|reflexivity]|now rewrite F2]. }
    assert (forall c r x, as_sync F (Ret c r) x -> exists r', x = Ret c r') as RR by (intros c r x Rx; inversion Rx; subst; eauto).
    assert (forall c c' t' o' r, before (rc_hist k) (Ret c r) (Inv c' t' o') ->
      exists r', before (rc_hist k') (Ret c r') (Inv c' t' (if F c' then OSync else o'))) as Bf.
    { intros c c' t' o' r B. destruct (before_related Fh B) as (x & y & Rx & Ry & B'). destruct (RR _ _ _ Rx) as (r' & ->). rewrite (RI _ _ _ _ Ry) in B'. eauto. }
    assert (apart_when_concurrent (rc_hist k')) as A'.
    { intros c t o c' t' o' I I' Ne. destruct (Back _ _ _ I) as (o1 & I1 & ->). destruct (Back _ _ _ I') as (o1' & I1' & ->).
      destruct (A _ _ _ _ _ _ I1 I1' Ne) as [(r & B)|[(r & B)|(N & N' & D)]]; [left; exact (Bf _ _ _ _ _ B)|right; left; exact (Bf _ _ _ _ _ B)|right; right].
      split; [destruct (F c); [discriminate|exact N]|]. split; [destruct (F c'); [discriminate|exact N']|].
      destruct (F c); [|destruct (F c')].
      - intros x. cbn [alters depends]. split; [tauto|]. auto.
      - intros x. cbn [alters depends]. split; [auto|tauto].
      - destruct D as [D|[D|D]]; try discriminate D. apply D. }
    destruct (@C28_rdb_apart_partial H enc dec E h _ R' A') as (s' & (l & X) & Fin).
    exists s'. split; [|intros Z; rewrite <- Ed, <- Ei; auto].
    set (l0 := filter (fun x => negb (F (c_id x))) l). exists l0.
    assert (forall x, In x (without F (rc_hist k)) -> In x (rc_hist k')) as Sub.
    { intros x Ix. apply filter_In in Ix as [Ix Nx]. destruct (related_in x Fh Ix) as (y & Iy & Ry). now rewrite (Fix_ _ _ Ry Nx) in Iy. }
    constructor.
    - unfold l0. clear -X. pose proof (ex_once X) as N. induction l as [|a l IH]; [constructor|]. cbn [filter map] in *. inversion N; subst.
      assert (NoDup (map (@c_id _ _ _) (filter (fun x => negb (F (c_id x))) l))) as N2.
      { clear -H3. induction l as [|b l IH]; [constructor|]. cbn [filter map] in *. inversion H3; subst. destruct (negb _); [|auto]. cbn [map]. constructor; [|auto].
        intros Ib. apply H1. apply in_map_iff in Ib as (z & Ez & Iz). apply filter_In in Iz as [Iz _]. apply in_map_iff. eauto. }
      destruct (negb (F (c_id a))); [|exact N2]. cbn [map]. constructor; [|exact N2]. intros Ia. apply H2.
      apply in_map_iff in Ia as (z & Ez & Iz). apply filter_In in Iz as [Iz _]. apply in_map_iff. eauto.
    - intros c t o r Ic Rc. destruct (ex_complete X _ _ _ _ (Sub _ Ic) (Sub _ Rc)) as (e & L). exists e. apply filter_In. split; [exact L|]. cbn.
      apply filter_In in Ic as [_ Nc]. exact Nc.
    - intros x Ix. apply filter_In in Ix as [Ix Nx]. destruct (ex_sound X _ Ix) as [(t & It) Rt]. destruct (Back _ _ _ It) as (o & Io & Eo).
      destruct (F (c_id x)) eqn:Fx; [discriminate Nx|]. split.
      + exists t. apply filter_In. cbn. rewrite Fx. rewrite Eo. auto.
      + intros r Ir. apply Rt. now apply Sub.
    - assert (forall a b, sequential step a l b -> (forall x, In x l -> F (c_id x) = true -> c_op x = OSync) -> sequential step a l0 b) as Drop.
      { unfold l0. clear. induction l as [|x l IH]; intros a b Q Y; [exact Q|]. cbn [sequential] in Q. destruct Q as (a1 & St & Q). cbn [filter].
        specialize (IH a1 b Q (fun z I => Y z (or_intror I))). destruct (F (c_id x)) eqn:Fx; cbn [negb].
        - rewrite (Y x (or_introl eq_refl) Fx) in St. assert (a1 = a) as ->; [|exact IH].
          unfold rdb_step in St. cbn in St. unfold rdb_sync, resw in St. cbn in St. congruence.
        - cbn [sequential]. eauto. }
      apply Drop; [exact (ex_legal X)|]. intros x Ix Fx. destruct (ex_sound X _ Ix) as [(t & It) _]. destruct (Back _ _ _ It) as (o & _ & Eo). now rewrite Fx in Eo.
    - intros a b r t B Ia Ib. apply filter_In in Ia as [Ia Na]. apply filter_In in Ib as [Ib Nb]. apply before_kept; auto.
      assert (before (rc_hist k') (Ret (c_id a) r) (Inv (c_id b) t (c_op b))) as B'; [|exact (ex_order X _ _ B' Ia Ib)].
      apply before_filter in B. destruct (before_related Fh B) as (x & y & Rx & Ry & B').
      now rewrite (Fix_ _ _ Rx Na), (Fix_ _ _ Ry Nb) in B'.
  Qed.
End Theorems.

(** ** A concrete execution

    [fschedule 2 l] runs two threads step by step; [Left a] is a step as in
    [schedule], [Right t]: the read thread [t] is about to make fails. *)
Section Schedules.
  Variable H : list byte -> N.
  Variable enc : json -> bytes.
  Variable dec : bytes -> option json.
  Variable bound : nat.
  Notation step1 := (go1 bound).

  Definition fgo1 (k : rconfig) (fs : list nat) (t : nat) : option (rconfig * list nat) :=
    match rc_threads k t with
    | Running c e g (PDb _) =>
      if existsb (fun x => match x with Inv c' _ o => Nat.eqb c' c && negb (counts_all o) | Ret _ _ => false end) (rc_hist k)
      then Some (with_thread k t (Running c e g (PRet (Err EDatastore))), c :: fs) else None
    | _ => None
    end.
  Definition fperform (k : rconfig) (fs : list nat) (a : act + nat) : option (rconfig * list nat) :=
    match a with
    | inl a => match perform H enc dec bound k a with Some k' => Some (k', fs) | None => None end
    | inr t => fgo1 k fs t
    end.
  Fixpoint fschedule (l : list (act + nat)) (k : rconfig) (fs : list nat) : option (rconfig * list nat) :=
    match l with [] => Some (k, fs) | a :: l => match fperform k fs a with Some (k1, fs1) => fschedule l k1 fs1 | None => None end end.

  Section Reach.
    Variable E : renv -> Prop.
    Variable s : rstate.
    Notation good k fs := (freach H enc dec E s k fs /\ envs E k /\ beyond bound k).
    Lemma fgo_sound n : forall k fs t k', go bound n k t = Some k' -> good k fs -> good k' fs.
    Proof.
      induction n as [|n IH]; intros k fs t k' G (R & En & B); cbn in G; [inversion G; subst; auto|].
      destruct (go1 bound k t) as [k1|] eqn:G1; [|discriminate]. destruct (go1_step H enc dec (E := E) t G1 En B) as (St & E1 & B1).
      refine (IH _ _ _ _ G _). conj; auto. eapply FReachS; eauto.
    Qed.
    Lemma fschedule_sound l : forall k fs k' fs', fschedule l k fs = Some (k', fs') ->
      (forall t e o, In (inl (Begin t e o)) l -> E e) -> good k fs -> good k' fs'.
    Proof.
      induction l as [|a l IH]; intros k fs k' fs' G A (R & En & B); cbn in G; [inversion G; subst; auto|].
      destruct (fperform k fs a) as [[k1 fs1]|] eqn:P; [|discriminate].
      assert (good k1 fs1) as Q; [|refine (IH _ _ _ _ G _ Q); intros t e o X; apply (A t e o); now right].
      destruct a as [[t e o|t n]|t]; cbn [fperform perform] in P.
      - destruct (rc_threads k t) eqn:Th; [|discriminate P]. destruct (Nat.ltb t bound) eqn:Lb; inversion P; subst. apply Nat.ltb_lt in Lb.
        assert (envs E (RConfig (rc_db k) (rc_ix k) (upd (rc_threads k) t (Running (rc_next k) e GNone (prog_of H enc dec e o)))
                  (rc_hist k ++ [Inv (rc_next k) t o]) (S (rc_next k)))) as E2.
        { intros t' c' e' g' p' X. cbn in X.
          destruct (upd_case (rc_threads k) t (Running (rc_next k) e GNone (prog_of H enc dec e o)) t') as [[-> U]|[_ U]]; rewrite U in X; [|eauto].
          inversion X; subst. apply (A t e' o). now left. }
        conj; [eapply FReachS; [exact R|now apply RInvoke|exact E2]|exact E2|].
        intros t' L. cbn. destruct (upd_case (rc_threads k) t (Running (rc_next k) e GNone (prog_of H enc dec e o)) t') as [[-> U]|[_ U]]; rewrite U; [lia|auto].
      - destruct (go bound n k t) as [k2|] eqn:G2; inversion P; subst. refine (@fgo_sound n k fs1 t k1 G2 _). auto.
      - unfold fgo1 in P. destruct (rc_threads k t) as [|c e g [r|f|f|f|f|ix f|b f]] eqn:Th; try discriminate P.
        destruct (existsb _ _) eqn:Ex in P; inversion P; subst. apply existsb_exists in Ex as ([c' t0 o|] & Io & Eo); [|discriminate Eo].
        apply andb_true_iff in Eo as [Ec Eo]. apply Nat.eqb_eq in Ec as ->. apply negb_true_iff in Eo.
        conj; [eapply FReachF; eauto|eapply envs_upd; eauto|]. apply beyond_upd; [exact B|congruence].
    Qed.
    Theorem fschedule_ran l k fs : fschedule l (rconfig0 s) [] = Some (k, fs) ->
      (forall t e o, In (inl (Begin t e o)) l -> E e) -> freach H enc dec E s k fs /\ beyond bound k.
    Proof.
      intros G A. destruct (@fschedule_sound l (rconfig0 s) [] k fs G A) as (R & _ & B); [|auto].
      conj; [constructor|intros t c e g p X; discriminate X|intros t _; reflexivity].
    Qed.
  End Reach.
End Schedules.

Definition fran (s : rstate) (l : list (act + nat)) : rconfig * list nat :=
  match fschedule hash0 enc0 dec0 2 l (rconfig0 s) [] with Some x => x | None => (rconfig0 s, []) end.
Definition fruns (s : rstate) (l : list (act + nat)) : bool :=
  match fschedule hash0 enc0 dec0 2 l (rconfig0 s) [] with Some (k, _) => quiet 2 k | None => false end.
Lemma fran_reach s l : fruns s l = true -> forallb (fun a => match a with inl (Begin _ e _) => wok e | _ => true end) l = true ->
  freach hash0 enc0 dec0 (fun e : renv => wok e = true) s (fst (fran s l)) (snd (fran s l)) /\ forall t, rc_threads (fst (fran s l)) t = RIdle.
Proof.
  unfold fruns, fran. intros Q A. destruct (fschedule _ _ _ _ _ _ _) as [[k fs]|] eqn:Sc; [|discriminate].
  destruct (fschedule_ran hash0 enc0 dec0 2 (fun e : renv => wok e = true) s l Sc) as [R B].
  - intros t e o Hx. rewrite forallb_forall in A. exact (A _ Hx).
  - split; [exact R|]. now apply (@quiet_sound 2).
Qed.

(** Vertex 1 is being deleted while an edge out of it is created: two calls that
    would not be linearizable (C28_rdb_dangling_edge_refuted).  A read of the
    deletion fails after the edge has been written: the deletion reports it, the
    edge is there, and the theorems above apply. *)
Definition first_only (c : nat) : bool := Nat.eqb c 0.
Example C66_case : exists h k,
  freach hash0 enc0 dec0 (fun e : renv => wok e = true) (run0 h) k [0] /\ (forall t, rc_threads k t = RIdle) /\
  rc_hist k = [Inv 0 0 (ODelete (q_vertex u1)); Inv 1 1 (OCreateEdge e12); Ret 1 (Ok (RBoolean true)); Ret 0 (Err EDatastore)] /\
  without first_only (rc_hist k) = [Inv 1 1 (OCreateEdge e12); Ret 1 (Ok (RBoolean true))] /\
  ineffective first_only [0] (rc_hist k) /\ apart_but first_only (rc_hist k) /\
  db_get ops0 (at_ k) (q_vertex u1) = Ok [Vertices [v1]] /\ db_get ops0 (at_ k) (q_edge e12) = Ok [Edges [e12]].
Proof.
  set (h := ok_calls [OCreateVertex v1; OCreateVertex v2]).
  set (l := [inl (Begin 0 ok_env (ODelete (q_vertex u1))); inl (Go 0 1); inl (Begin 1 ok_env (OCreateEdge e12)); inl (Go 1 1); inl (Go 0 1);
             inl (Go 1 4); inr 0; inl (Go 0 1)]).
  exists h, (fst (fran (run0 h) l)). destruct (@fran_reach (run0 h) l) as [R Q]; [vm_compute; reflexivity|reflexivity|].
  assert (snd (fran (run0 h) l) = [0]) as Fs by (vm_compute; reflexivity). rewrite Fs in R.
  assert (rc_hist (fst (fran (run0 h) l)) = [Inv 0 0 (ODelete (q_vertex u1)); Inv 1 1 (OCreateEdge e12); Ret 1 (Ok (RBoolean true)); Ret 0 (Err EDatastore)]) as Hh by (vm_compute; reflexivity).
  assert (db_get ops0 (at_ (fst (fran (run0 h) l))) (q_vertex u1) = Ok [Vertices [v1]]) as Q1 by (vm_compute; reflexivity).
  assert (db_get ops0 (at_ (fst (fran (run0 h) l))) (q_edge e12) = Ok [Edges [e12]]) as Q2 by (vm_compute; reflexivity).
  split; [exact R|split; [exact Q|split; [exact Hh|]]]. rewrite Hh. split; [reflexivity|]. split; [|split; [|split; [exact Q1|exact Q2]]]; clear; [split|].
  - intros c [<- |[]]. reflexivity.
  - intros c t o Fc I. apply Nat.eqb_eq in Fc as ->. cbn in I. destruct I as [I|[I|[I|[I|[]]]]]; inversion I; subst.
    split; [discriminate|]. left. now left.
  - intros c t o c' t' o' I I' N. right; right. cbn in I, I'.
    destruct I as [I|[I|[I|[I|[]]]]]; inversion I; subst; destruct I' as [I'|[I'|[I'|[I'|[]]]]]; inversion I'; subst; try (exfalso; now apply N);
      (split; [discriminate|split; [discriminate|]]); [now left|right; now left].
Qed.
