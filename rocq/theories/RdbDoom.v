(** * Concurrent RocksDB calls that never get to write

    A call in progress when the process is killed either has written its batch or
    has not.  Seen from afterwards the second is a call whose write failed. *)
From Verif Require Import Base OMap Json Types Util Db Rdb Spec MemFacts Conc RdbProg RdbConc RdbLive.

Set Implicit Arguments.
Local Open Scope list_scope.

Definition returning {A} (p : prog A) : Prop := exists r, p = PRet r.
(** Nothing follows a write but returning. *)
Fixpoint last_write {A} (p : prog A) : Prop :=
  match p with
  | PRet _ => True
  | PDb k => forall d, last_write (k d)
  | PIx k | PShared k | PExcl k => forall ix, last_write (k ix)
  | PSetIx _ k => last_write k
  | PWrite _ k => returning k
  end.
Fixpoint only_reads {A} (p : prog A) : Prop :=
  match p with
  | PRet _ => True
  | PDb k => forall d, only_reads (k d)
  | PIx k | PShared k | PExcl k => forall ix, only_reads (k ix)
  | PSetIx _ k => only_reads k
  | PWrite _ _ => False
  end.
Lemma reads_last {A} (p : prog A) : only_reads p -> last_write p.
Proof. induction p; cbn; auto. easy. Qed.
Lemma reads_bind {A B} (p : prog A) (f : A -> prog B) : only_reads p -> (forall a, only_reads (f a)) -> only_reads (pbind p f).
Proof. intros R F. induction p as [[| |]|k IH|k IH|k IH|k IH|ix k IH|b k IH]; cbn in *; auto. Qed.
Lemma last_bind {A B} (p : prog A) (f : A -> prog B) : only_reads p -> (forall a, last_write (f a)) -> last_write (pbind p f).
Proof. intros R F. induction p as [[| |]|k IH|k IH|k IH|k IH|ix k IH|b k IH]; cbn in *; auto. easy. Qed.
Lemma last_bind_ret {A B} (p : prog A) (f : A -> prog B) : last_write p -> (forall a, returning (f a)) -> last_write (pbind p f).
Proof.
  intros R F. induction p as [[| |]|k IH|k IH|k IH|k IH|ix k IH|b k IH]; cbn in *; auto.
  - destruct (F a) as (r & ->). exact I.
  - destruct R as (r & ->). destruct r; cbn; [apply F|eexists; reflexivity..].
Qed.

Section Doom.
  Variable H : list byte -> N.
  Variable enc : json -> bytes.
  Variable dec : bytes -> option json.

  Ltac rd := repeat first [exact I | exact (fun _ => I) | progress cbn [only_reads] | apply reads_bind; [|intros] | intros].

  Lemma reads_each {A} (l : list (outcome A)) f : (forall a, only_reads (f a)) -> only_reads (p_each l f).
  Proof. intros F. induction l as [|x l IH]; cbn [p_each]; rd; auto. Qed.
  Lemma reads_over {A} (l : list A) f : (forall a, only_reads (f a)) -> only_reads (p_over l f).
  Proof. apply reads_each. Qed.
  Lemma reads_vertices ids : only_reads (p_specific_vertices H ids).
  Proof. induction ids as [|i l IH]; cbn [p_specific_vertices]; rd; auto. Qed.
  Lemma reads_existing l : only_reads (p_existing H l).
  Proof. induction l as [|[i| |] l IH]; cbn [p_existing]; rd; auto. Qed.
  Lemma reads_edges es : only_reads (p_specific_edges H es).
  Proof. induction es as [|e l IH]; cbn [p_specific_edges]; rd; auto. Qed.
  Lemma reads_pipe dir limit t vs : forall es, only_reads (p_pipe_vertices H dir limit t vs es).
  Proof.
    induction vs as [|v vs IH]; intros es; cbn [p_pipe_vertices]; rd.
    - destruct dir; exact (fun _ => I).
    - destruct (limit <=? lenN (es ++ a1))%N; rd; auto.
  Qed.
  Lemma reads_vp n vs : only_reads (p_props_of_vertices H dec n vs).
  Proof. induction vs as [|v vs IH]; cbn [p_props_of_vertices]; rd; auto. destruct n; rd. Qed.
  Lemma reads_ep n es : only_reads (p_props_of_edges H dec n es).
  Proof. induction es as [|e es IH]; cbn [p_props_of_edges]; rd; auto. destruct n; rd. Qed.
  Lemma reads_e1 n : only_reads (p_indexed_or_err (p_edges_with_property H n)).
  Proof. unfold p_indexed_or_err, p_edges_with_property. rd; [destruct (mem n ix); rd|]. destruct a; rd. Qed.
  Lemma reads_e2 n v : only_reads (p_indexed_or_err (p_edges_with_property_value H n v)).
  Proof. unfold p_indexed_or_err, p_edges_with_property_value. rd; [destruct (mem n ix); rd|]. destruct a; rd. Qed.
  Lemma reads_v1 n : only_reads (p_indexed_or_err (p_vertex_ids_with_property H n)).
  Proof. unfold p_indexed_or_err, p_vertex_ids_with_property, pmap. rd; [destruct (mem n ix); rd; apply reads_existing|]. destruct a; rd. Qed.
  Lemma reads_v2 n v : only_reads (p_indexed_or_err (p_vertex_ids_with_property_value H n v)).
  Proof. unfold p_indexed_or_err, p_vertex_ids_with_property_value, pmap. rd; [destruct (mem n ix); rd; apply reads_existing|]. destruct a; rd. Qed.
  Local Opaque p_indexed_or_err.
  Lemma reads_query q : forall out, only_reads (p_query H dec q out).
  Proof.
    pose proof reads_e1 as E1. pose proof reads_e2 as E2. pose proof reads_v1 as V1. pose proof reads_v2 as V2.
    assert (forall inner (IH : forall out, only_reads (p_query H dec inner out)) out (g : outv -> prog N),
      (forall o, only_reads (g o)) ->
      only_reads (let! out1 := p_query H dec inner out in let! (piped, out2) := PRet (pop out1) in let! n := g piped in
        PRet (Ok (Count n :: re_export inner piped out2)))) as Cn.
    { intros inner IH out g G. rd; auto. destruct a0; rd. apply G. }
    induction q; intros out; cbn [p_query].
    all: try (rd; auto; fail).
    all: try (unfold p_all_vertices, p_range_vertices, p_all_edges, pmap, p_pipe_edges; rd; auto using reads_vertices, reads_edges; fail).
    - unfold p_all_vertices, p_range_vertices. destruct start; rd.
    - rd; auto. destruct a0 as [[]]; unfold pmap, p_pipe_edges; rd; auto using reads_vertices, reads_pipe.
    - rd; auto. destruct a0 as [[]]; unfold pmap; rd; auto using reads_vp, reads_ep.
    - rd; auto. destruct a0 as [[]]; rd; auto.
    - rd; auto. destruct a0 as [[]]; rd; auto.
    - rd; auto. destruct a0; rd.
    - destruct q; try (apply (Cn _ IHq); intros []; exact I); unfold p_vertex_count, p_edge_count; rd.
  Qed.
  Lemma last_guarded f : (forall ix, only_reads (f ix)) -> last_write (p_guarded f).
  Proof. intros F. unfold p_guarded. cbn. intros ix. apply last_bind; auto. intros b. cbn. eexists; reflexivity. Qed.
  Lemma reads_vdel ix id n : only_reads (p_vprop_delete H dec ix id n).
  Proof. unfold p_vprop_delete. rd. destruct (mem n ix); rd. Qed.
  Lemma reads_edel ix e n : only_reads (p_eprop_delete H dec ix e n).
  Proof. unfold p_eprop_delete. rd. destruct (mem n ix); rd. Qed.
  Lemma reads_vset ix id n v : only_reads (p_vprop_set H enc dec ix id n v).
  Proof. unfold p_vprop_set. rd. destruct (mem n ix); [apply reads_vdel|rd]. Qed.
  Lemma reads_eset ix e n v : only_reads (p_eprop_set H enc dec ix e n v).
  Proof. unfold p_eprop_set. rd. destruct (mem n ix); [apply reads_edel|rd]. Qed.
  Lemma reads_edge_delete ix e : only_reads (p_edge_delete H dec ix e).
  Proof. unfold p_edge_delete. rd. apply reads_each. intros. apply reads_edel. Qed.
  Lemma reads_vertex_delete ix id : only_reads (p_vertex_delete H dec ix id).
  Proof.
    unfold p_vertex_delete. rd; apply reads_each; intros; try apply reads_vdel.
    - destruct (eqb (eout a2) id); [apply reads_edge_delete|exact I].
    - destruct (eqb (eout a4) id); [apply reads_edge_delete|exact I].
  Qed.
  Lemma last_create_vertex v : last_write (p_create_vertex H v).
  Proof. unfold p_create_vertex. cbn. intros d. destruct (vertex_exists H d (vid v)); cbn; [exact I|eexists; reflexivity]. Qed.
  Lemma last_create_edge e : last_write (p_create_edge H e).
  Proof.
    unfold p_create_edge. cbn. intros d. destruct (vertex_exists H d (eout e)); cbn; [|exact I]. intros d1.
    destruct (vertex_exists H d1 (ein e)); cbn; [|exact I]. intros d2. eexists; reflexivity.
  Qed.
  Lemma last_call e o : last_write (prog_of H enc dec e o).
  Proof.
    destruct o; cbn [prog_of];
      unfold pmap, p_delete, p_set_properties, p_bulk_insert, p_delete_vertices, p_delete_edges, p_delete_vertex_properties, p_delete_edge_properties,
        p_set_vertex_properties, p_set_edge_properties;
      try (apply last_guarded; intros; apply reads_over; intros);
      auto using reads_vertex_delete, reads_vdel, reads_edel, reads_vset, reads_eset.
    all: try (apply last_bind_ret; [auto using last_create_vertex, last_create_edge|intros; eexists; reflexivity]).
    all: try (apply reads_last; rd; auto using reads_query; fail).
    - apply last_bind; [apply reads_query|]. intros out. apply last_bind; [exact I|]. intros [v rest].
      destruct v; try exact I; apply last_guarded; intros; apply reads_over; intros;
        auto using reads_vertex_delete, reads_vdel, reads_edel.
      rd. destruct a0; [apply reads_edge_delete|exact I].
    - apply last_bind; [apply reads_query|]. intros out. apply last_bind; [exact I|]. intros [v' rest].
      destruct v'; try exact I; apply last_guarded; intros; apply reads_over; intros; auto using reads_vset, reads_eset.
    - destruct a; cbn [p_bulk_item]; auto using reads_vset, reads_eset; rd.
    - unfold p_index_property. cbn [last_write]. intros ix. destruct (mem _ ix); cbn [last_write]; [exact I|].
      apply last_bind; [exact (fun _ => I)|]. intros vs. apply last_bind; [apply reads_each; intros; rd|]. intros b1.
      apply last_bind; [exact (fun _ => I)|]. intros es. apply last_bind; [apply reads_each; intros; rd|]. intros b2.
      cbn [last_write]. eexists; reflexivity.
    - rd. destruct a0; [apply reads_edge_delete|exact I].
  Qed.

  (** ** The same execution with failing writes *)

  Definition doom (e : renv) : renv := REnv false (iord e) (iord_perm e).
  Lemma doom_prog e o : o <> OSync -> prog_of H enc dec (doom e) o = prog_of H enc dec e o.
  Proof. destruct o; try reflexivity. now intros []. Qed.

  Definition doomed (D : nat -> bool) (x : rthread) : rthread :=
    match x with RIdle => RIdle | Running c e g p => Running c (if D c then doom e else e) g p end.
  (** [k2] is [k], except that the writes of the calls in [D] would fail. *)
  Record doomed_conf (D : nat -> bool) (k k2 : rconfig) : Prop := {
    dc_db : rc_db k2 = rc_db k;
    dc_ix : rc_ix k2 = rc_ix k;
    dc_hist : rc_hist k2 = rc_hist k;
    dc_next : rc_next k2 = rc_next k;
    dc_threads : forall t, rc_threads k2 t = doomed D (rc_threads k t) }.
  (** None of the calls in [D] is past its write. *)
  Record before_writes (D : nat -> bool) (k : rconfig) : Prop := {
    bw_run : forall t c e g p, rc_threads k t = Running c e g p -> D c = true -> ~ returning p;
    bw_only : forall c, D c = true -> rc_next k <= c \/ exists t e g p, rc_threads k t = Running c e g p }.
  Record tidy (k : rconfig) : Prop := {
    td_old : forall t c e g p, rc_threads k t = Running c e g p -> c < rc_next k;
    td_one : forall t c e g p t' e' g' p', rc_threads k t = Running c e g p -> rc_threads k t' = Running c e' g' p' -> t = t';
    td_last : forall t c e g p, rc_threads k t = Running c e g p -> last_write p }.


  Lemma upd_neq {A} (f : nat -> A) t x t' : t' <> t -> upd f t x t' = f t'.
  Proof. intros N. unfold upd. destruct (Nat.eqb_spec t' t); [easy|reflexivity]. Qed.
  Ltac thr t t' := destruct (Nat.eq_dec t' t) as [->|?]; [rewrite ?upd_eq in *|rewrite ?upd_neq in * by assumption].
  Ltac steps St := destruct St as [k t e o Th|k t c e g f Th|k t c e g f Th NX|k t c e g f Th NX|k t c e g f Th NX NS|k t c e g ix p Th|
                    k t c e g b p Th W|k t c e g b p Th W|k t c e g r Th].

  Lemma tidy_run k t c e g p g' p' : tidy k -> rc_threads k t = Running c e g p -> last_write p' ->
    forall d ix h, tidy (RConfig d ix (upd (rc_threads k) t (Running c e g' p')) h (rc_next k)).
  Proof.
    intros [T1 T2 T3] Th L d ix h. split; cbn [rc_threads rc_next].
    - intros t' c' e' g1 p1. thr t t'; [intros X; inversion X; subst; eauto|eauto].
    - intros t1 c1 e1 g1 p1 t2 e2 g2 p2 X Y. thr t t1; thr t t2; auto; [inversion X; subst; eauto|inversion Y; subst; eauto|eauto].
    - intros t' c' e' g1 p1. thr t t'; [intros X; inversion X; subst; exact L|eauto].
  Qed.
  Lemma tidy_step k k' : tidy k -> rstep H enc dec k k' -> tidy k'.
  Proof.
    intros T St. steps St; try (eapply tidy_run; eauto; pose proof (td_last T _ Th) as L; cbn [last_write] in L; auto; fail).
    - destruct T as [T1 T2 T3]. split; cbn [rc_threads rc_next].
      + intros t' c' e' g' p'. thr t t'; [intros X; inversion X; lia|]. intros X. apply T1 in X. lia.
      + intros t1 c1 e1 g1 p1 t2 e2 g2 p2 X Y. thr t t1; thr t t2; auto; [inversion X; subst; apply T1 in Y; lia|inversion Y; subst; apply T1 in X; lia|eauto].
      + intros t' c' e' g' p'. thr t t'; [intros X; inversion X; apply last_call|eauto].
    - pose proof (td_last T _ Th) as L. cbn in L. eapply tidy_run; eauto. destruct L as (r & ->). exact I.
    - eapply tidy_run; eauto. exact I.
    - destruct T as [T1 T2 T3]. split; cbn [rc_threads rc_next].
      + intros t' c' e' g' p'. thr t t'; [discriminate|eauto].
      + intros t1 c1 e1 g1 p1 t2 e2 g2 p2 X Y. thr t t1; thr t t2; auto; try discriminate. eauto.
      + intros t' c' e' g' p'. thr t t'; [discriminate|eauto].
  Qed.
  Lemma tidy_reach E s k : rreach H enc dec E s k -> tidy k.
  Proof. induction 1; [split; cbn; discriminate|eapply tidy_step; eauto]. Qed.

  Lemma bw_run_back k D t c e g p g' p' d ix h : rc_threads k t = Running c e g p -> ~ returning p ->
    before_writes D (RConfig d ix (upd (rc_threads k) t (Running c e g' p')) h (rc_next k)) -> before_writes D k.
  Proof.
    intros Th NR [B1 B2]. cbn [rc_threads rc_next] in *. split.
    - intros t' c' e' g1 p1 X Dc. destruct (Nat.eq_dec t' t) as [->|N]; [congruence|]. eapply (B1 t'); [rewrite upd_neq by assumption; exact X|exact Dc].
    - intros c' Dc. destruct (B2 _ Dc) as [?|(t' & e' & g1 & p1 & X)]; [now left|]. right. thr t t'; [inversion X; subst; eauto 6|eauto 6].
  Qed.
  Lemma bw_back D k k' : tidy k -> rstep H enc dec k k' -> before_writes D k' -> before_writes D k.
  Proof.
    intros T St B. steps St; try (eapply bw_run_back; [exact Th|intros (? & ?); discriminate|exact B]).
    - destruct B as [B1 B2]. cbn [rc_threads rc_next] in *. split.
      + intros t' c' e' g' p' X Dc. apply (B1 t' c' e' g' p'); auto. rewrite upd_neq; [exact X|]. congruence.
      + intros c Dc. destruct (B2 _ Dc) as [?|(t' & e' & g1 & p1 & X)]; [left; lia|]. thr t t'; [inversion X; subst; left; lia|right; eauto 6].
    - destruct B as [B1 B2]. cbn [rc_threads rc_next] in *.
      assert (D c = false) as Dc.
      { destruct (D c) eqn:Dc; [|reflexivity]. exfalso. destruct (B2 _ Dc) as [Le|(t' & e' & g1 & p1 & X)].
        - apply (td_old T) in Th. lia.
        - thr t t'; [discriminate|]. pose proof (td_one T t t' Th X). congruence. }
      split.
      + intros t' c' e' g' p' X Dc'. apply (B1 t' c' e' g' p'); auto. rewrite upd_neq; [exact X|]. intros ->. congruence.
      + intros c' Dc'. destruct (B2 _ Dc') as [?|(t' & e' & g1 & p1 & X)]; [now left|]. thr t t'; [discriminate|right; eauto 6].
  Qed.

  Lemma doomed_holds D x g : holds (doomed D x) g <-> holds x g.
  Proof.
    destruct x as [|c e g' p]; cbn; [reflexivity|]. rewrite !holds_running. reflexivity.
  Qed.
  Lemma doomed_upd D k k2 t x d ix h n : doomed_conf D k k2 ->
    doomed_conf D (RConfig d ix (upd (rc_threads k) t x) h n) (RConfig d ix (upd (rc_threads k2) t (doomed D x)) h n).
  Proof.
    intros C. split; try reflexivity. intros t'. cbn. unfold upd. destruct (Nat.eqb t' t); [reflexivity|apply (dc_threads C)].
  Qed.
  Lemma doom_step D k k' k2 : tidy k -> rstep H enc dec k k' -> before_writes D k' -> doomed_conf D k k2 ->
    exists k2', rstep H enc dec k2 k2' /\ doomed_conf D k' k2'.
  Proof.
    intros T St B C. pose proof (bw_back T St B) as B0. pose proof (tidy_step T St) as T'. pose proof C as [C1 C2 C3 C4 C5].
    destruct k2 as [d2 ix2 th2 h2 n2]. cbn in C1, C2, C3, C4. subst.
    assert (forall g, (forall t', ~ holds (rc_threads k t') g) -> forall t', ~ holds (th2 t') g) as NH.
    { intros g N t' X. cbn [rc_threads] in C5. rewrite C5 in X. exact (N t' (proj1 (doomed_holds D _ _) X)). }
    steps St; cbn [rc_threads] in C5; pose proof (C5 t) as Tt; rewrite Th in Tt; cbn [doomed] in Tt;
      (eexists; split; [|eapply doomed_upd; exact C]); cbn [doomed].
    - assert (Running (rc_next k) (if D (rc_next k) then doom e else e) GNone (prog_of H enc dec e o)
            = Running (rc_next k) (if D (rc_next k) then doom e else e) GNone (prog_of H enc dec (if D (rc_next k) then doom e else e) o)) as ->.
      { destruct (D (rc_next k)) eqn:Dn; [|reflexivity]. rewrite doom_prog; [reflexivity|]. intros ->.
        eapply (bw_run B t); [cbn; apply upd_eq|exact Dn|]. cbn. eexists; reflexivity. }
      match goal with |- rstep _ _ _ ?a _ => exact (RInvoke H enc dec a t (if D (rc_next k) then doom e else e) o Tt) end.
    - match goal with |- rstep _ _ _ ?a _ => exact (RRead H enc dec a t Tt) end.
    - match goal with |- rstep _ _ _ ?a _ => exact (RIndexed H enc dec a t Tt (NH _ NX)) end.
    - match goal with |- rstep _ _ _ ?a _ => exact (RShared H enc dec a t Tt (NH _ NX)) end.
    - match goal with |- rstep _ _ _ ?a _ => exact (RExcl H enc dec a t Tt (NH _ NX) (NH _ NS)) end.
    - match goal with |- rstep _ _ _ ?a _ => exact (RSetIx H enc dec a t Tt) end.
    - assert (D c = false) as Dc.
      { destruct (D c) eqn:Dc; [|reflexivity]. exfalso. eapply (bw_run B t); [cbn; apply upd_eq|exact Dc|].
        pose proof (td_last T _ Th) as L. exact L. }
      rewrite Dc in *. match goal with |- rstep _ _ _ ?a _ => exact (RWrite H enc dec a t Tt W) end.
    - assert (D c = false) as Dc.
      { destruct (D c) eqn:Dc; [|reflexivity]. exfalso. eapply (bw_run B t); [cbn; apply upd_eq|exact Dc|]. eexists; reflexivity. }
      rewrite Dc in *. match goal with |- rstep _ _ _ ?a _ => exact (RFail H enc dec a t Tt W) end.
    - match goal with |- rstep _ _ _ ?a _ => exact (RReturn H enc dec a t Tt) end.
  Qed.
  Lemma doom_reach E s k D : rreach H enc dec E s k -> before_writes D k -> exists k2, rreach H enc dec (fun _ => True) s k2 /\ doomed_conf D k k2.
  Proof.
    intros R. revert D. induction R as [|k k' R IH St En]; intros D B.
    - exists (rconfig0 s). split; [constructor|]. split; reflexivity.
    - pose proof (tidy_reach R) as T. destruct (IH D (bw_back T St B)) as (k2 & R2 & C).
      destruct (doom_step T St B C) as (k2' & St2 & C'). exists k2'. split; [|exact C']. econstructor; eauto. now intros.
  Qed.

  (** ** Finishing without a write *)
  Definition harmless (k : rconfig) : Prop := forall t c e g p, rc_threads k t = Running c e g p -> wok e = true -> returning p.
  Definition is_ret (x : Conc.event) : Prop := exists c r, x = Ret c r.
  Lemma harmless_step k k' : harmless k -> rstep H enc dec k k' -> rc_next k' = rc_next k ->
    harmless k' /\ rc_db k' = rc_db k /\ exists l, rc_hist k' = rc_hist k ++ l /\ Forall is_ret l.
  Proof.
    intros Hm St N.
    assert (forall t c e g p g' p' d ix h n, rc_threads k t = Running c e g p -> ~ returning p ->
              harmless (RConfig d ix (upd (rc_threads k) t (Running c e g' p')) h n)) as Go.
    { intros t c e g p g' p' d ix h n Th NR t' c' e' g1 p1. cbn. thr t t'; [|apply Hm]. intros X W. inversion X; subst. elim NR. eapply Hm; eauto. }
    steps St; cbn [rc_db rc_hist rc_next] in *; try (lia);
      try (conj; [eapply Go; [exact Th|intros (? & ?); discriminate]|reflexivity|exists []; rewrite app_nil_r; auto]).
    - exfalso. destruct (Hm t c e g _ Th W) as (? & ?). discriminate.
    - conj; [|reflexivity|exists [Ret c r]; split; [reflexivity|repeat constructor; eexists; eauto]].
      intros t' c' e' g1 p1. cbn. thr t t'; [discriminate|apply Hm].
  Qed.
  Lemma harmless_finishing k k' : finishing H enc dec k k' -> harmless k ->
    rc_db k' = rc_db k /\ exists l, rc_hist k' = rc_hist k ++ l /\ Forall is_ret l.
  Proof.
    induction 1 as [|k k1 k' St N F IH]; intros Hm; [split; [reflexivity|exists []; now rewrite app_nil_r]|].
    destruct (harmless_step Hm St N) as (Hm1 & D1 & l1 & E1 & F1). destruct (IH Hm1) as (D2 & l2 & E2 & F2).
    split; [congruence|]. exists (l1 ++ l2). rewrite E2, E1, app_assoc. split; [reflexivity|]. now apply Forall_app.
  Qed.
  Lemma finishing_reach s k k' : finishing H enc dec k k' -> rreach H enc dec (fun _ => True) s k -> rreach H enc dec (fun _ => True) s k'.
  Proof. induction 1 as [|k k1 k' St N F IH]; intros R; [exact R|]. apply IH. econstructor; eauto. now intros. Qed.

  (** The calls in progress that have not written. *)
  Definition unwritten (k : rconfig) (n : nat) (c : nat) : bool :=
    existsb (fun t => match rc_threads k t with Running c' _ _ p => Nat.eqb c c' && match p with PRet _ => false | _ => true end | RIdle => false end) (seq 0 n).
  (** At any moment of an execution: there is an execution that made the same
      calls and got the same results, in which no call is in progress, and whose
      database is the one at that moment. *)
  Theorem as_if_finished E s k : rreach H enc dec E s k -> exists k3, rreach H enc dec (fun _ => True) s k3 /\
    (forall t, rc_threads k3 t = RIdle) /\ rc_db k3 = rc_db k /\ exists l, rc_hist k3 = rc_hist k ++ l /\ Forall is_ret l.
  Proof.
    intros R. pose proof (tidy_reach R) as T. destruct (live_reach R) as [_ [n Fn]].
    assert (forall t c e g p, rc_threads k t = Running c e g p -> ~ returning p -> unwritten k n c = true) as U1.
    { intros t c e g p Th N. unfold unwritten. apply existsb_exists. exists t. split.
      - apply in_seq. split; [lia|]. destruct (Nat.lt_ge_cases t n); [lia|]. rewrite Fn in Th by assumption. discriminate.
      - rewrite Th, Nat.eqb_refl. cbn. destruct p; auto. elim N. eexists; reflexivity. }
    assert (before_writes (unwritten k n) k) as B.
    { split.
      - intros t c e g p Th Dc (r & ->). unfold unwritten in Dc. apply existsb_exists in Dc as (t' & _ & X).
        destruct (rc_threads k t') as [|c' e' g' p'] eqn:Th'; [discriminate|]. apply andb_true_iff in X as [X1 X2]. apply Nat.eqb_eq in X1. subst c'.
        assert (t = t') as <- by (eapply (td_one T); eauto). rewrite Th in Th'. inversion Th'; subst. discriminate.
      - intros c Dc. right. unfold unwritten in Dc. apply existsb_exists in Dc as (t' & _ & X).
        destruct (rc_threads k t') as [|c' e' g' p'] eqn:Th'; [discriminate|]. apply andb_true_iff in X as [X1 X2]. apply Nat.eqb_eq in X1. subst c'. eauto. }
    destruct (doom_reach R B) as (k2 & R2 & C). destruct (can_finish R2) as (k3 & F & Id).
    assert (harmless k2) as Hm.
    { intros t c e g p Th W. rewrite (dc_threads C) in Th. destruct (rc_threads k t) as [|c0 e0 g0 p0] eqn:Th0; [discriminate|]. cbn in Th. inversion Th; subst.
      destruct p; try (rewrite (U1 _ _ _ _ _ Th0) in W; [discriminate|intros (? & ?); discriminate]). eexists; reflexivity. }
    destruct (harmless_finishing F Hm) as (D3 & l & E3 & Fl). exists k3. conj; auto.
    - eapply finishing_reach; eauto.
    - rewrite D3. apply (dc_db C).
    - exists l. rewrite E3, (dc_hist C). auto.
  Qed.
End Doom.
