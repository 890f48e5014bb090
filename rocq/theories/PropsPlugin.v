(** * C37, C38: plugin vertex mapping and plugin loading. *)
From Coq Require Import String.
From Verif Require Import Base OMap Json Types Util Db Mem Rdb Spec QueryFacts SpecFacts MemFacts MemRefine MemHist KeyFacts RdbSpec RdbRep RdbWrite RdbPut RdbRefine RdbGraph RdbHist Agree Examples Proto Server Plugin.

Set Implicit Arguments.
Local Open Scope list_scope.
Local Notation bytes := (list byte).

(** ** C37 *)

(** The vertices and the errors among the items of an iterator. *)
Definition item_vertices (l : list item) : list vertex := flat_map (fun x => match x with IVertex v => [v] | _ => [] end) l.
Definition item_errors (l : list item) : list error := flat_map (fun x => match x with IError e => [e] | _ => [] end) l.
(** The errors calls ended with. *)
Definition call_errors {Er} (l : list (vertex * jout Er)) : list Er :=
  flat_map (fun x => match snd x with JErr e => [e] | _ => [] end) l.
Arguments call_errors : simpl never.

Section Mapping.
  Variable Er : Type.
  Variable indra : error -> Er.
  Variable n : nat.
  Variable behaves : vertex -> jout Er -> Prop.
  Notation pstep := (pstep indra n behaves).
  Notation psteps := (psteps indra n behaves).
  Notation pool := (pool Er).


  (** What holds in every reachable state: the items handled so far ([did]),
      those skipped by an early stop ([skip], only after an error), the calls,
      and where the recorded error comes from. *)
  Definition pool_inv (items : list item) (p : pool) : Prop :=
    exists did skip,
      items = did ++ skip ++ p_todo p /\
      Permutation (item_vertices did) (map fst (p_log p) ++ p_running p ++ p_queue p) /\
      (p_err p = None -> call_errors (p_log p) = [] /\ item_errors did = [] /\ skip = []) /\
      (forall e, p_err p = Some e -> In e (call_errors (p_log p)) \/ In e (map indra (item_errors did))) /\
      (p_phase p <> Looping -> p_err p = None -> p_todo p = []) /\
      (forall r, p_phase p = Returned r -> r = p_err p /\ p_queue p = [] /\ p_running p = []) /\
      (p_phase p = Looping -> skip = []) /\
      (length (p_running p) <= threads n)%nat /\
      Forall (fun x => behaves (fst x) (snd x)) (p_log p).

  Lemma item_vertices_app a b : item_vertices (a ++ b) = item_vertices a ++ item_vertices b.
  Proof. apply flat_map_app. Qed.
  Lemma item_errors_app a b : item_errors (a ++ b) = item_errors a ++ item_errors b.
  Proof. apply flat_map_app. Qed.
  Lemma call_errors_app (a b : list (vertex * jout Er)) : call_errors (a ++ b) = call_errors a ++ call_errors b.
  Proof. apply flat_map_app. Qed.

  Lemma inv_start items : pool_inv items (pool_start Er items).
  Proof.
    exists [], []. cbn. conj; auto; try discriminate; try congruence.
    unfold threads. lia.
  Qed.

  Lemma inv_step items p q : pool_inv items p -> pstep p q -> pool_inv items q.
  Proof.
    intros (did & skip & I1 & I2 & I3 & I4 & I5 & I6 & I7 & I8 & I9) S.
    destruct S as [x todo i q run log err B|v todo i q run log err B|e todo i q run log err B|i q run log err|
                   v todo i q run log err ph L|v o todo i q r1 r2 log err ph Bh|todo i log err]; cbn in *.
    - apply andb_true_iff in B as [_ B]. destruct err as [e|]; [|discriminate]. rewrite (I7 eq_refl) in *. cbn in I1.
      exists did, [x]. cbn. conj; auto; try discriminate; try congruence.
    - rewrite (I7 eq_refl) in *. cbn in I1. exists (did ++ [IVertex v]), []. cbn. conj; auto; try discriminate; try congruence.
      + now rewrite <- app_assoc.
      + rewrite item_vertices_app. cbn. rewrite !app_assoc. apply Permutation_app_tail. now rewrite <- app_assoc.
      + intros E. destruct (I3 E) as (A & A' & _). rewrite item_errors_app, A'. auto.
      + intros e E. destruct (I4 e E) as [A|A]; auto. right. rewrite item_errors_app, map_app. apply in_or_app; auto.
    - rewrite (I7 eq_refl) in *. cbn in I1. exists (did ++ [IError e]), []. cbn. conj; auto; try discriminate; try congruence.
      + now rewrite <- app_assoc.
      + rewrite item_vertices_app. cbn. now rewrite app_nil_r.
      + destruct err; discriminate.
      + intros e' E. rewrite item_errors_app, map_app. destruct err as [x|]; cbn in E; inversion E; subst.
        * destruct (I4 e' eq_refl) as [A|A]; auto. right. apply in_or_app; auto.
        * right. apply in_or_app. right. now left.
    - exists did, skip. cbn. conj; auto; try discriminate.
    - exists did, skip. cbn. conj; auto.
      + eapply Permutation_trans; [exact I2|]. apply Permutation_app_head. change (v :: run ++ q) with ((v :: run) ++ q).
        symmetry. apply Permutation_middle.
      + intros r E. destruct (I6 r E) as (_ & E' & _). discriminate.
    - exists did, skip. cbn. conj; auto.
      + rewrite map_app. cbn. eapply Permutation_trans; [exact I2|]. rewrite <- !app_assoc. apply Permutation_app_head.
        cbn. symmetry. apply Permutation_middle.
      + intros E. assert (err = None /\ call_errors [(v, o)] = []) as [-> E2].
        { destruct o; cbn in E; auto. destruct err; discriminate. }
        destruct (I3 eq_refl) as (A & A' & A''). rewrite call_errors_app, A, E2. auto.
      + intros e E. rewrite call_errors_app.
        assert (err = Some e \/ In e (call_errors [(v, o)])) as [->|X].
        { destruct o; cbn in *; auto. destruct err as [y|]; cbn in E; inversion E; auto. right. now left. }
        * destruct (I4 e eq_refl) as [A|A]; auto. left. apply in_or_app; auto.
        * left. apply in_or_app. auto.
      + intros PL E. apply I5; auto. destruct o; cbn in E; auto. destruct err; discriminate.
      + intros r E. destruct (I6 r E) as (_ & _ & E'). destruct r1; discriminate.
      + rewrite !app_length in *. cbn in *. lia.
      + apply Forall_app. auto.
    - exists did, skip. cbn. conj; auto; try discriminate.
      + intros _ E. apply I5; [discriminate|assumption].
      + intros r E. inversion E. auto.
  Qed.

  Lemma inv_steps items p : psteps (pool_start Er items) p -> pool_inv items p.
  Proof.
    intros S. remember (pool_start Er items) as s eqn:E. induction S as [|p q r _ IH S]; subst; [apply inv_start|].
    eapply inv_step; eauto.
  Qed.

  (** When [map] returns [Ok], the mapper was called exactly once for every
      vertex, all calls ended, and none failed. *)
  Theorem C37_all_once_partial items p :
    psteps (pool_start Er items) p -> p_phase p = Returned None ->
    Permutation (map fst (p_log p)) (item_vertices items) /\ item_errors items = [] /\
    call_errors (p_log p) = [] /\ p_running p = [] /\ p_queue p = [].
  Proof.
    intros S R. destruct (inv_steps S) as (did & skip & I1 & I2 & I3 & I4 & I5 & I6 & _).
    destruct (I6 _ R) as (E & Eq & Er'). symmetry in E. destruct (I3 E) as (A & A' & ->).
    assert (p_todo p = []) as T by (apply I5; [congruence|assumption]).
    rewrite T, app_nil_r in I1. subst items. rewrite Eq, Er', !app_nil_r in I2. conj; auto. now symmetry.
  Qed.

  (** When [map] returns an error, it is one a call ended with or one of the
      iterator. *)
  Theorem C37_error_origin_partial items p e :
    psteps (pool_start Er items) p -> p_phase p = Returned (Some e) ->
    In e (call_errors (p_log p)) \/ In e (map indra (item_errors items)).
  Proof.
    intros S R. destruct (inv_steps S) as (did & skip & I1 & _ & _ & I4 & _ & I6 & _).
    destruct (I6 _ R) as (E & _). symmetry in E. destruct (I4 e E) as [A|A]; auto. right.
    rewrite I1, item_errors_app, map_app. apply in_or_app. auto.
  Qed.

  (** If a call failed, [map] does not return [Ok]. *)
  Theorem C37_errors_reported_partial items p e r :
    psteps (pool_start Er items) p -> p_phase p = Returned r -> In e (call_errors (p_log p)) -> r <> None.
  Proof. intros S R I ->. destruct (C37_all_once_partial S R) as (_ & _ & E & _). rewrite E in I. destruct I. Qed.

  (** At any moment, whatever happens, no vertex is handed out more often than
      it was found, and every call is for a vertex of the database. *)
  Theorem C37_never_twice_partial items p :
    psteps (pool_start Er items) p ->
    exists rest, Permutation (item_vertices items) (map fst (p_log p) ++ p_running p ++ rest).
  Proof.
    intros S. destruct (inv_steps S) as (did & skip & I1 & I2 & _).
    exists (p_queue p ++ item_vertices (skip ++ p_todo p)). rewrite I1, item_vertices_app.
    eapply Permutation_trans; [apply Permutation_app_tail; exact I2|]. now rewrite <- !app_assoc.
  Qed.

  (** At most the requested number of calls run at a time (at least one). *)
  Theorem C37_threads_partial items p : psteps (pool_start Er items) p -> (length (p_running p) <= Nat.max n 1)%nat.
  Proof. intros S. destruct (inv_steps S) as (did & skip & H). apply H. Qed.

  (** [map] returns: if every call ends, no state but a returned one is stuck
      and no schedule is infinite. *)
  Definition left_to_do (p : pool) : nat :=
    (3 * length (p_todo p) + 2 * length (p_queue p) + length (p_running p) +
     match p_phase p with Looping => 2 | Joining => 1 | Returned _ => 0 end)%nat.
  Theorem C37_progress_partial p :
    (forall v, exists o, behaves v o) -> (forall r, p_phase p <> Returned r) -> exists q, pstep p q.
  Proof.
    intros B R. destruct p as [todo i q run log err ph]. cbn in R. destruct ph as [| |r]; [| |now elim (R r)].
    - destruct todo as [|x todo]; [eexists; apply ps_end|]. destruct (stops (S i) err) eqn:E.
      + eexists. now apply ps_break.
      + destruct x; eexists; [now apply ps_submit|now apply ps_item_error].
    - destruct run as [|v run].
      + destruct q as [|v q]; [eexists; apply ps_join|]. eexists. apply ps_start. unfold threads. cbn. lia.
      + destruct (B v) as (o & Ho). eexists. apply (@ps_finish Er indra n behaves v o todo i q [] run log err Joining Ho).
  Qed.
  Theorem C37_terminates_partial p q : pstep p q -> (left_to_do q < left_to_do p)%nat.
  Proof.
    intros []; unfold left_to_do; cbn -[Nat.mul]; rewrite ?app_length; cbn -[Nat.mul]; try lia.
  Qed.
End Mapping.

(** The plugin naive_vertex_count: when it returns, the answer is the number of
    vertices. *)
Theorem C37_naive_vertex_count_partial Er (indra : error -> Er) n items p :
  psteps indra n (@counts Er) (pool_start Er items) p -> p_phase p = Returned None ->
  (N.of_nat (length (item_vertices items)) < 18446744073709551616)%N ->
  naive_count p = N.of_nat (length (item_vertices items)).
Proof.
  intros S R L. destruct (C37_all_once_partial S R) as (P & _). unfold naive_count.
  rewrite <- (Permutation_length P), map_length in *. now apply N.mod_small.
Qed.
(** It fails only if reading the vertices does. *)
Theorem C37_naive_vertex_count_ok_partial Er (indra : error -> Er) n items p e :
  psteps indra n (@counts Er) (pool_start Er items) p -> p_phase p = Returned (Some e) -> item_errors items <> [].
Proof.
  intros S R E. destruct (C37_error_origin_partial S R) as [A|A]; [|rewrite E in A; destruct A].
  destruct (inv_steps S) as (did & skip & _ & _ & _ & _ & _ & _ & _ & _ & B).
  unfold call_errors in A. apply in_flat_map in A as ([v o] & Hv & A). rewrite Forall_forall in B. apply B in Hv. cbn in *.
  unfold counts in Hv. subst o. destruct A.
Qed.

(** What the mapping loop sees of the iterator [all_vertices] returns. *)
Definition items_of (it : iter vertex) : list item :=
  map (fun x => match x with Ok v => IVertex v | Err e => IError e | Panic => IError EDatastore end) it.

Lemma count_matches {S} (ops : txn_ops S) s g tlt vm ixok bad Er (indra : error -> Er) n p :
  type_order tlt -> reads_ok ops s g tlt vm ixok bad ->
  forall it, t_all_vertices ops s = Ok it ->
  psteps indra n (@counts Er) (pool_start Er (items_of it)) p -> (forall r, p_phase p = Returned r -> r = None) /\
  (p_phase p = Returned None -> exists k, db_get ops s (QCount QAllVertex) = Ok [Count k] /\
     ((k < 18446744073709551616)%N -> naive_count p = k)).
Proof.
  intros T RO it E PS. destruct (ro_all_vertices RO) as (l & Y & L). unfold yields in Y. rewrite E in Y. inversion Y; subst it.
  assert (items_of (map Ok l) = map IVertex l) as EI.
  { unfold items_of. rewrite map_map. reflexivity. }
  assert (item_vertices (map IVertex l) = l /\ item_errors (map IVertex l) = []) as [EV EE].
  { clear. induction l as [|v l [IH1 IH2]]; [auto|]. split; [change (v :: item_vertices (map IVertex l) = v :: l); now rewrite IH1|exact IH2]. }
  rewrite EI in PS. split.
  - intros [e|] R; [|reflexivity]. now elim (C37_naive_vertex_count_ok_partial PS R).
  - intros R. destruct (ro_vertex_count RO) as (l' & C & L'). exists (lenN l'). split.
    + unfold db_get. cbn [query_exec]. rewrite C. reflexivity.
    + intros B. assert (l' = l) as -> by (exact (@listing_v_det _ _ _ L' L)).
      rewrite (C37_naive_vertex_count_partial PS R); rewrite EV; [reflexivity|exact B].
Qed.

(** On every reachable database the plugin answers what
    [get(AllVertexQuery.count())] answers. *)
Theorem C37_mem_count_is_query_partial dbg h ord m Er (indra : error -> Er) n it p :
  mem_run dbg h = Some m -> t_all_vertices (mem_ops dbg ord) m = Ok it ->
  psteps indra n (@counts Er) (pool_start Er (items_of it)) p -> (forall r, p_phase p = Returned r -> r = None) /\
  (p_phase p = Returned None -> exists k, db_get (mem_ops dbg ord) m (QCount QAllVertex) = Ok [Count k] /\
     ((k < 18446744073709551616)%N -> naive_count p = k)).
Proof.
  intros Hm E PS. destruct (run_weak dbg h Hm) as (K & M & _). exact (count_matches lex_order (mem_reads_ok dbg ord M) E PS).
Qed.
Theorem C37_rdb_count_is_query_partial H enc dec h env Er (indra : error -> Er) n it p :
  good_history enc dec h -> t_all_vertices (rdb_ops H enc dec env) (rdb_run H enc dec h) = Ok it ->
  psteps indra n (@counts Er) (pool_start Er (items_of it)) p -> (forall r, p_phase p = Returned r -> r = None) /\
  (p_phase p = Returned None ->
   exists k, db_get (rdb_ops H enc dec env) (rdb_run H enc dec h) (QCount QAllVertex) = Ok [Count k] /\
     ((k < 18446744073709551616)%N -> naive_count p = k)).
Proof.
  intros G E PS. destruct (@run_rep H enc dec h G) as (L & R & _).
  exact (count_matches slt_order (@rdb_reads_ok H enc dec (rdb_run H enc dec h) L R env) E PS).
Qed.

(** A concrete schedule with two vertices, two threads and calls ending out of
    order. *)
Example C37_case : exists p, psteps (fun e : error => e) 2 (@counts error) (pool_start error [IVertex v1; IVertex v2]) p /\
  p_phase p = Returned None /\ p_log p = [(v2, JOk); (v1, JOk)].
Proof.
  eexists. split; [|split; [|]].
  - eapply pss_step; [|apply ps_join].
    eapply pss_step; [|apply (@ps_finish error (fun e => e) 2 (@counts error) v1 JOk [] 2 [] [] []); reflexivity].
    eapply pss_step; [|apply (@ps_finish error (fun e => e) 2 (@counts error) v2 JOk [] 2 [] [] [v1]); reflexivity].
    eapply pss_step; [|apply ps_end].
    eapply pss_step; [|apply ps_start; cbn; lia].
    eapply pss_step; [|apply (@ps_submit error (fun e => e) 2 (@counts error) v2 [] 1 [] [v1]); reflexivity].
    eapply pss_step; [|apply ps_start; cbn; lia].
    eapply pss_step; [|apply (@ps_submit error (fun e => e) 2 (@counts error) v1 [IVertex v2] 0 [] []); reflexivity].
    apply pss_refl.
  - reflexivity.
  - reflexivity.
Qed.

(** A call that panics is not reported: [map] returns [Ok]. *)
Theorem C37_panic_refuted : exists p,
  psteps (fun e : error => e) 1 (fun _ o => o = JPanic) (pool_start error [IVertex v1]) p /\
  p_phase p = Returned None /\ p_log p = [(v1, JPanic)].
Proof.
  eexists. split; [|split; [|]].
  - eapply pss_step; [|apply ps_join].
    eapply pss_step; [|apply (@ps_finish error (fun e => e) 1 (fun _ o => o = JPanic) v1 JPanic [] 1 [] [] []); reflexivity].
    eapply pss_step; [|apply ps_end].
    eapply pss_step; [|apply ps_start; cbn; lia].
    eapply pss_step; [|apply (@ps_submit error (fun e => e) 1 (fun _ o => o = JPanic) v1 [] 0 [] []); reflexivity].
    apply pss_refl.
  - reflexivity.
  - reflexivity.
Qed.

(** ** C38 *)

Section Loading.
  Variable Plug : Type.
  Notation library := (library Plug).
  Variable ours : version.

  (** A library that loads and was built for this server. *)
  Definition matches (l : bytes * library) : Prop := exists d, snd l = LibOk d /\ d_version d = ours.
  Definition entries_of (l : bytes * library) : list (bytes * Plug) :=
    match snd l with LibOk d => d_entries d | _ => [] end.

  (** The server starts exactly when every library matches; the plugins are
      those of the libraries, later libraries first. *)
  Lemma load_all libs : forall acc, Forall matches libs ->
    load_plugins ours acc libs = Loaded (flat_map entries_of (rev libs) ++ acc).
  Proof.
    induction libs as [|[path lib] libs IH]; intros acc F; [reflexivity|].
    apply Forall_cons_iff in F as [(d & E & V) F]. cbn [snd] in E. subst lib. cbn [load_plugins].
    destruct (version_eq_dec (d_version d) ours) as [_|N]; [|contradiction]. rewrite IH by assumption.
    cbn [rev]. rewrite flat_map_app. cbn [flat_map entries_of snd]. now rewrite app_nil_r, <- app_assoc.
  Qed.
  Theorem C38_starts libs : (exists ps, load_plugins ours [] libs = Loaded ps) <-> Forall matches libs.
  Proof.
    split; [|intros F; eexists; now apply load_all].
    generalize (@nil (bytes * Plug)) as acc. induction libs as [|[path lib] libs IH]; intros acc (ps & E); [constructor|].
    cbn [load_plugins] in E. destruct lib as [| |d]; try discriminate. destruct (version_eq_dec (d_version d) ours) as [V|N]; [|discriminate].
    constructor; [exists d; auto|eapply IH; eauto].
  Qed.

  (** Otherwise the first library that does not match is reported. *)
  Theorem C38_first_mismatch libs e : load_plugins ours [] libs = LoadFailed Plug e <->
    exists before path lib after, libs = before ++ (path, lib) :: after /\ Forall matches before /\
      match lib with
      | LibOk d => d_version d <> ours /\ e = VersionMismatch path (d_version d) ours
      | _ => e = LibLoading path
      end.
  Proof.
    generalize (@nil (bytes * Plug)) as acc. split.
    - revert acc. induction libs as [|[path lib] libs IH]; intros acc E; [discriminate|]. cbn [load_plugins] in E.
      destruct lib as [| |d].
      + inversion E. exists [], path, (LibBroken Plug), libs. conj; auto.
      + inversion E. exists [], path, (LibNoRegister Plug), libs. conj; auto.
      + destruct (version_eq_dec (d_version d) ours) as [V|N].
        * destruct (IH _ E) as (b & p & l & a & -> & F & H). exists ((path, LibOk d) :: b), p, l, a. conj; auto.
          constructor; [exists d; auto|assumption].
        * inversion E. exists [], path, (LibOk d), libs. conj; auto.
    - intros (b & p & l & a & -> & F & H). revert acc. induction F as [|[p' l'] b (d & E & V) _ IH]; intros acc; cbn [app load_plugins].
      + destruct l as [| |d]; try congruence. destruct H as [N ->]. destruct (version_eq_dec (d_version d) ours); [contradiction|reflexivity].
      + cbn [snd] in E. subst l'. destruct (version_eq_dec (d_version d) ours); [apply IH|contradiction].
  Qed.
End Loading.

Section Calling.
  Variable alnum : N -> bool.
  Variable enc : json -> bytes.
  Variable dec : bytes -> option json.
  Variables St Env : Type.
  Variable step : St -> Env * op -> outcome res * St.
  Notation library := (library (plugin St)).

  Lemma find_app (a b : plugins St) name : find_plugin name (a ++ b) =
    match find_plugin name a with Some p => Some p | None => find_plugin name b end.
  Proof.
    induction a as [|[m p] a IH]; cbn [app find_plugin]; [reflexivity|]. destruct (list_eq_dec Byte.byte_eq_dec name m); auto.
  Qed.

  (** A name means the plugin of the last library that has it. *)
  Theorem C38_last_wins ours before (lib : bytes * library) after ps name p :
    load_plugins ours [] (before ++ lib :: after) = Loaded ps ->
    find_plugin name (entries_of lib) = Some p ->
    Forall (fun l => find_plugin name (entries_of l) = None) after ->
    find_plugin name ps = Some p.
  Proof.
    intros L F N. assert (Forall (matches ours) (before ++ lib :: after)) as M by (apply C38_starts; eauto).
    rewrite load_all in L by assumption. inversion L; subst ps. rewrite app_nil_r, rev_app_distr. cbn [rev].
    rewrite !flat_map_app. cbn [flat_map]. rewrite app_nil_r, <- app_assoc, find_app.
    assert (find_plugin name (flat_map (@entries_of (plugin St)) (rev after)) = None) as ->.
    { clear - N. apply Forall_rev in N. induction N as [|l ls E _ IH]; cbn [flat_map]; [reflexivity|]. now rewrite find_app, E. }
    now rewrite find_app, F.
  Qed.

  (** Only names of loaded libraries are known. *)
  Theorem C38_known_names ours (libs : list (bytes * library)) (ps : plugins St) name :
    load_plugins ours [] libs = Loaded ps ->
    (exists p, find_plugin name ps = Some p) <-> exists lib, In lib libs /\ In name (map fst (entries_of lib)).
  Proof.
    intros L. assert (Forall (matches ours) libs) as M by (apply C38_starts; eauto).
    rewrite load_all in L by assumption. inversion L; subst ps. rewrite app_nil_r.
    assert (forall l : plugins St, (exists p, find_plugin name l = Some p) <-> In name (map fst l)) as K.
    { intros l. induction l as [|[m p] l IH]; cbn.
      - split; [intros [? E]; discriminate|tauto].
      - destruct (list_eq_dec Byte.byte_eq_dec name m) as [->|Nm].
        + split; eauto.
        + rewrite IH. split; [auto|intros [E|E]; [congruence|assumption]]. }
    rewrite K. split.
    - intros Hn. apply in_map_iff in Hn as (x & <- & Hx). apply in_flat_map in Hx as (lib & Hl & Hx).
      apply in_rev in Hl. exists lib. split; [assumption|]. now apply in_map.
    - intros (lib & Hl & Hn). apply in_map_iff in Hn as (x & <- & Hx). apply in_map. apply in_flat_map. exists lib.
      split; [now apply in_rev in Hl|assumption].
  Qed.

  (** Calling an unknown plugin (with a readable argument, or none) fails with
      [not_found] and has no effect. *)
  Theorem C38_unknown_plugin ps st env fresh name arg :
    find_plugin name ps = None -> (forall a, arg = Some a -> exists v, dec (pj_value a) = Some v) ->
    serve alnum enc dec step ps st env fresh (RqExecutePlugin name arg) = (SErr SNotFound, st).
  Proof.
    intros F A. cbn [serve]. destruct arg as [a|].
    - destruct (A a eq_refl) as (v & E). unfold of_json. rewrite E. cbn [converted]. now rewrite F.
    - cbn [converted]. now rewrite F.
  Qed.
  (** A server without plugins knows none. *)
  Theorem C38_no_plugins st env fresh name :
    serve alnum enc dec step [] st env fresh (RqExecutePlugin name None) = (SErr SNotFound, st).
  Proof. reflexivity. Qed.
End Calling.

(** The interface version given to [register_plugins!] is not looked at: a
    plugin that asks for interface 2 loads into a server of interface 1. *)
Theorem C38_macro_version_refuted Plug compiler ps : exists libs : list (bytes * library Plug),
  libs = [([], LibOk (register_plugins compiler 2 ps))] /\
  load_plugins (default_version compiler) [] libs = Loaded (rev ps).
Proof.
  eexists. split; [reflexivity|]. cbn [load_plugins register_plugins d_version d_entries].
  destruct (version_eq_dec (default_version compiler) (default_version compiler)); [|contradiction]. now rewrite app_nil_r.
Qed.

Example C38_case : exists (libs : list (bytes * library nat)) e,
  load_plugins (Version [x31] 1) [] libs = LoadFailed nat e /\ e = VersionMismatch [x62] (Version [x32] 1) (Version [x31] 1) /\
  libs = [([x61], LibOk (Declaration (Version [x31] 1) [([x6e], 1%nat)])); ([x62], LibOk (Declaration (Version [x32] 1) []))].
Proof. eexists _, _. split; [|split; reflexivity]. vm_compute. reflexivity. Qed.
