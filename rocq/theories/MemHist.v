(** * Histories of calls on the in-memory datastore. *)
From Verif Require Import Base OMap Json Types Util Db Mem Spec QueryFacts SpecFacts QueryTrust JsonFacts UtilFacts
  MemFacts MemRefine.

Set Implicit Arguments.

Lemma mem_run_snoc dbg h x : mem_run dbg (h ++ [x]) = snd (mem_step dbg (mem_run dbg h) x).
Proof. unfold mem_run. now rewrite fold_left_app. Qed.

Lemma mem_step_Some dbg st x m' : snd (mem_step dbg st x) = Some m' ->
  exists m r, st = Some m /\ exec (mem_ops dbg (fst x)) m (snd x) = (r, m') /\ r <> Panic /\
    mem_step dbg st x = (r, Some m').
Proof.
  unfold mem_step. destruct st as [m|]; [|discriminate].
  destruct (exec (mem_ops dbg (fst x)) m (snd x)) as [r m1] eqn:X.
  destruct r; cbn; intros H; inversion H; subst; exists m; eexists; (split; [reflexivity|]); (split; [exact X|]);
    (split; [discriminate|reflexivity]).
Qed.

Lemma gof_empty : gof mem_empty = g_empty.
Proof. unfold gof, g_empty. cbn. f_equal. now apply omap_eq. Qed.

(** A history in which calls write properties only to elements that exist. *)
Definition tidy_history (dbg : bool) (h : list (order * op)) : Prop :=
  forall h1 x h2 m, h = h1 ++ x :: h2 -> mem_run dbg h1 = Some m -> tidy_op (gof m) (snd x).

Lemma tidy_prefix dbg h x : tidy_history dbg (h ++ [x]) -> tidy_history dbg h.
Proof.
  intros H h1 y h2 m -> Hr. apply (H h1 y (h2 ++ [x]) m); [|assumption]. now rewrite <- app_assoc.
Qed.

Arguments tidy_prefix {dbg h x} _.

Lemma run_weak dbg h : forall m, mem_run dbg h = Some m ->
  cok m /\ mirror m /\ endpoints_exist (gof m) /\ (dbg = true -> sound m).
Proof.
  induction h as [|x h IH] using rev_ind; intros m Hm.
  - cbn in Hm. inversion Hm; subst. conj.
    + intros n c H. cbn in H. rewrite get_empty in H. discriminate.
    + intros e. reflexivity.
    + intros e H. unfold is_edge in H. cbn in H. discriminate.
    + intros _ n c v mb H. cbn in H. rewrite get_empty in H. discriminate.
  - rewrite mem_run_snoc in Hm. apply mem_step_Some in Hm as (m0 & r & E0 & E & N & _).
    destruct (IH m0 E0) as (K & M & EP & SO).
    destruct (@mem_exec_change dbg (fst x) m0 (snd x) r m E N) as (Ch & K1 & K2 & K3 & K4). conj; auto.
    eapply endpoints_change; eauto.
Qed.

Lemma run_tidy h : forall m, tidy_history true h -> mem_run true h = Some m ->
  complete m /\ no_orphans (gof m).
Proof.
  induction h as [|x h IH] using rev_ind; intros m T Hm.
  - cbn in Hm. inversion Hm; subst. split; [|rewrite gof_empty; apply no_orphans_empty].
    intros n c mb y H. cbn in H. rewrite get_empty in H. discriminate.
  - pose proof (T h x [] ) as Tx. 
    rewrite mem_run_snoc in Hm. apply mem_step_Some in Hm as (m0 & r & E0 & E & N & _).
    destruct (IH m0 (tidy_prefix T) E0) as (C & NO). destruct (run_weak true h E0) as (K & M & EP & SO).
    specialize (SO eq_refl).
    destruct (@mem_exec_change true (fst x) m0 (snd x) r m E N) as (_ & _ & K2 & _).
    split; [auto|]. destruct (@mem_exec_spec true (fst x) m0 (snd x) r m M) with (2 := E) as [H|[(-> & _)|(-> & _)]]; try (now elim N).
    + intros q n _ _ _. now apply exact_of_inv.
    + eapply no_orphans_step; [|exact H|exact NO]. apply (Tx m0 eq_refl E0).
Qed.

(** ** Panics *)

Definition max_vertex_exists (m : memory) : Prop := exists v, is_vertex (gof m) v /\ is_max (vid v).

(** Values of edge leaves: value queries only return existing edges. *)
Definition mem_trusted (q : query) : Prop :=
  match q with QEdgeWithPropertyValue _ _ => True | _ => False end.

Lemma map_Ok_inj {A} (l l' : list A) : map (@Ok A) l = map Ok l' -> l = l'.
Proof.
  revert l'; induction l as [|a l IH]; intros [|b l'] H; try discriminate; [reflexivity|].
  inversion H. f_equal. auto.
Qed.

Lemma mem_query_trust dbg ord m q (b : Prop) : mirror m ->
  (b -> match leaf q with QEdgeWithPropertyPresence _ => False | _ => True end) ->
  trust (mem_ops dbg ord) m (gof m) is_max q b [].
Proof.
  intros M HB. eapply (query_trust lex_order (mem_reads_ok dbg ord M)) with (tl := mem_trusted).
  - intros n l [].
  - intros n x l _ E. cbn in E. unfold mem_edges_with_property_value in E.
    destruct (get n (m_index m)) as [c|]; [|discriminate]. cbn in E.
    destruct (c_get x c) as [ms|].
    + inversion E as [E1]. apply map_Ok_inj in E1. subst l. apply Forall_forall. intros e He.
      eapply Permutation_in in He; [|apply Permutation_sym, ord_e_perm]. apply filter_In in He as [_ He]. exact He.
    + inversion E as [E1]. destruct l; [constructor|discriminate].
  - intros Hb. specialize (HB Hb). destruct (leaf q); try exact I; contradiction.
Qed.

Lemma exec_panic dbg ord m o m' : mirror m ->
  exec (mem_ops dbg ord) m o = (Panic, m') ->
  (dbg = true /\ ~ complete m) \/
  (exists q, op_query o = Some q /\ reads_all q = true /\ max_vertex_exists m).
Proof.
  intros M.
  assert (forall (x : outcome unit * memory) g', steps dbg m x g' -> resw (fun _ => RUnit) x = (Panic, m') ->
    dbg = true /\ ~ complete m) as U.
  { intros [r1 m1] g' [(O & C & _) _] E. cbn [fst] in *. destruct O as [->|[-> D]]; [discriminate|].
    split; [assumption|]. intros HC. apply C in HC. discriminate. }
  assert (forall q, (let? out := query_exec (mem_ops dbg ord) m q [] in pop out) = Panic ->
    reads_all q = true /\ max_vertex_exists m) as Q.
  { intros q E. pose proof (@mem_query_trust dbg ord m q False M (fun f => match f with end)) as T. unfold trust in T.
    destruct (query_exec (mem_ops dbg ord) m q []) as [out|e|]; cbn in E.
    - destruct T as (v & rest & -> & _). discriminate.
    - discriminate.
    - exact T. }
  destruct o; cbn [exec]; intros E; cbn [op_query].
  - destruct (create_vertex_spec dbg m v) as [Ev _]. cbn in E. unfold resw in E. rewrite Ev in E. discriminate.
  - destruct (create_vertex_spec dbg m (Vertex id t)) as [Ev _]. unfold db_create_vertex_from_type in E. cbn in E.
    destruct (mem_create_vertex m (Vertex id t)) as [r1 m1]. cbn in Ev. subst r1. cbn [sbind] in E.
    destruct (negb _); discriminate.
  - destruct (create_edge_spec dbg m e) as [Ev _]. cbn in E. unfold resw in E. rewrite Ev in E. discriminate.
  - right. exists q. split; [reflexivity|]. pose proof (f_equal fst E) as E1. cbn [fst] in E1. apply Q.
    unfold db_get in E1. destruct (query_exec (mem_ops dbg ord) m q []); try discriminate. reflexivity.
  - unfold db_delete in E.
    destruct (let? out := query_exec (mem_ops dbg ord) m q [] in pop out) as [[[l|l|l|l|l] rest]|e|] eqn:EQ; cbn in E;
      try discriminate.
    + left. eapply U; [apply delete_vertices_spec|exact E].
    + left. eapply U; [apply delete_edges_spec|exact E].
    + left. eapply U; [apply steps_delete_vprops|exact E].
    + left. eapply U; [apply steps_delete_eprops|exact E].
    + right. exists q. auto.
  - unfold db_set_properties in E.
    destruct (let? out := query_exec (mem_ops dbg ord) m q [] in pop out) as [[[l|l|l|l|l] rest]|e|] eqn:EQ; cbn in E;
      try discriminate.
    + left. eapply U; [apply set_vprops_spec|exact E].
    + left. eapply U; [apply set_eprops_spec|exact E].
    + right. exists q. auto.
  - left. eapply U; [apply bulk_spec|exact E].
  - cbn in E. discriminate.
  - discriminate.
  - left. eapply U; [apply delete_vertices_spec|exact E].
  - left. eapply U; [apply delete_edges_spec|exact E].
  - left. eapply U; [apply steps_delete_vprops|exact E].
  - left. eapply U; [apply steps_delete_eprops|exact E].
  - left. eapply U; [apply set_vprops_spec|exact E].
  - left. eapply U; [apply set_eprops_spec|exact E].
Qed.

(** ** Runs with their results *)

Fixpoint mem_trace (dbg : bool) (st : mem_db) (h : list (order * op)) : list (outcome res) * mem_db :=
  match h with
  | [] => ([], st)
  | x :: h' => let (r, st') := mem_step dbg st x in
               let (rs, st'') := mem_trace dbg st' h' in (r :: rs, st'')
  end.

Lemma mem_trace_state dbg h : forall st, snd (mem_trace dbg st h) = fold_left (fun st x => snd (mem_step dbg st x)) h st.
Proof.
  induction h as [|x h IH]; intros st; cbn [mem_trace fold_left]; [reflexivity|].
  rewrite <- IH. destruct (mem_step dbg st x) as [r st']. cbn [snd]. now destruct (mem_trace dbg st' h).
Qed.

Definition step_ok (dbg : bool) (m : memory) : Prop :=
  cok m /\ mirror m /\ endpoints_exist (gof m) /\ (dbg = true -> sound m).

(** One call on a reachable state of a tidy debug history. *)
Lemma tidy_step h m ord o r st' :
  tidy_history true h -> mem_run true h = Some m ->
  mem_step true (Some m) (ord, o) = (r, st') ->
  (exists m', st' = Some m' /\ spec_step lt vm (gof m) o r (gof m')) \/
  (r = Panic /\ st' = None /\ exists q, op_query o = Some q /\ hits_bad (gof m) lt vm is_max q).
Proof.
  intros T Hm E. destruct (run_tidy T Hm) as (C & NO). destruct (run_weak true h Hm) as (K & M & EP & SO).
  specialize (SO eq_refl).
  unfold mem_step in E. cbn [fst snd] in E. destruct (exec (mem_ops true ord) m o) as [r1 m1] eqn:X.
  destruct (@mem_exec_spec true ord m o r1 m1 M) with (2 := X) as [H|[(-> & _ & NC)|(-> & H)]].
  - intros q n _ _ _. now apply exact_of_inv.
  - left. destruct r1; inversion E; subst; eauto. inversion H.
  - contradiction.
  - right. inversion E; subst. auto.
Qed.

(** A sequence of calls on the abstract graph. *)
Inductive spec_runs (tlt : ident -> ident -> Prop) (vmatch : json -> json -> Prop)
  : graph -> list op -> list (outcome res) -> graph -> Prop :=
| sr_nil g : spec_runs tlt vmatch g [] [] g
| sr_cons g o r g1 os rs g2 :
    spec_step tlt vmatch g o r g1 -> spec_runs tlt vmatch g1 os rs g2 ->
    spec_runs tlt vmatch g (o :: os) (r :: rs) g2.

Lemma spec_runs_snoc tlt vmatch g os rs g1 o r g2 :
  spec_runs tlt vmatch g os rs g1 -> spec_step tlt vmatch g1 o r g2 ->
  spec_runs tlt vmatch g (os ++ [o]) (rs ++ [r]) g2.
Proof.
  induction 1; intros H'; cbn; econstructor; eauto. constructor.
Qed.

Lemma mem_trace_snoc dbg h x st : forall rs st1 r st2,
  mem_trace dbg st h = (rs, st1) -> mem_step dbg st1 x = (r, st2) ->
  mem_trace dbg st (h ++ [x]) = (rs ++ [r], st2).
Proof.
  revert st; induction h as [|y h IH]; intros st rs st1 r st2 H1 H2; cbn [mem_trace app] in *.
  - inversion H1; subst. now rewrite H2.
  - destruct (mem_step dbg st y) as [ry sty]. destruct (mem_trace dbg sty h) as [rs' st'] eqn:E.
    inversion H1; subst. rewrite (IH sty rs' st1 r st2 E H2). reflexivity.
Qed.

Theorem mem_refines_spec h rs m :
  tidy_history true h -> mem_trace true (Some mem_empty) h = (rs, Some m) ->
  spec_runs lt vm g_empty (map snd h) rs (gof m).
Proof.
  revert rs m. induction h as [|x h IH] using rev_ind; intros rs m T E.
  - cbn in E. inversion E; subst. rewrite gof_empty. constructor.
  - destruct (mem_trace true (Some mem_empty) h) as [rs0 st0] eqn:E0.
    destruct (mem_step true st0 x) as [r st2] eqn:ES.
    rewrite (mem_trace_snoc _ _ _ _ E0 ES) in E. inversion E; subst.
    pose proof (f_equal snd ES) as E2. cbn in E2. apply mem_step_Some in E2 as (m0 & r0 & -> & _ & _ & _).
    rewrite map_app. cbn [map]. eapply spec_runs_snoc.
    + apply IH; [exact (tidy_prefix T)|reflexivity].
    + assert (mem_run true h = Some m0) as Hm.
      { unfold mem_run. rewrite <- mem_trace_state, E0. reflexivity. }
      destruct x as [ord o]. destruct (tidy_step ord o (tidy_prefix T) Hm ES) as [(m' & Em & H)|(_ & H & _)].
      * inversion Em; subst. exact H.
      * discriminate.
Qed.

(** Any history, any build: a call whose query consults no index does what the
    specification says. *)
Lemma plain_step dbg h m ord o r st' :
  mem_run dbg h = Some m ->
  (forall q, op_query o = Some q -> index_names q = []) ->
  mem_step dbg (Some m) (ord, o) = (r, st') -> r <> Panic ->
  exists m', st' = Some m' /\ spec_step lt vm (gof m) o r (gof m').
Proof.
  intros Hm HQ E N. destruct (run_weak dbg h Hm) as (K & M & EP & SO).
  unfold mem_step in E. cbn [fst snd] in E. destruct (exec (mem_ops dbg ord) m o) as [r1 m1] eqn:X.
  destruct (@mem_exec_spec dbg ord m o r1 m1 M) with (2 := X) as [H|[(-> & _)|(-> & _)]].
  - intros q n Hq Hin. rewrite (HQ q Hq) in Hin. destruct Hin.
  - destruct r1; inversion E; subst; eauto. now elim N.
  - inversion E; subst. now elim N.
  - inversion E; subst. now elim N.
Qed.
