(** * C64: the same change twice

    What a [delete] or a [set_properties] does to the memory database does not
    depend on the order in which an index lookup gives its results (the [HashSet]s
    of memory/datastore.rs 77-166), as long as no stage of its query is cut off by
    its limit; if one is, it does. *)
From Coq Require Import Permutation.
From Verif Require Import Base OMap Json Types Util Db Mem Rdb Spec QueryFacts SpecFacts QueryTrust UtilFacts MemFacts MemRefine MemHist RdbSpec RdbHist Stages Effects
  Claims PropsMem PropsRdb PropsRdbIndex PropsRetry PropsRepeatRead Examples.

Set Implicit Arguments.

(** ** Updates of permuted lists *)
Lemma inb_perm {A} {O : Ord A} (x : A) l l' : Permutation l l' -> inb x l = inb x l'.
Proof.
  intros P. destruct (inb x l') eqn:E.
  - apply inb_In in E. apply inb_In. eapply Permutation_in; [symmetry; exact P|exact E].
  - apply not_true_iff_false in E. apply not_true_iff_false. intros X. apply E. apply inb_In in X. apply inb_In. eapply Permutation_in; eauto.
Qed.
Lemma filt_same {K A} {O : Ord K} (p p' : K * A -> bool) (m : omap K A) : (forall x, p x = p' x) -> filt p m = filt p' m.
Proof. intros E. apply omap_ext. intros k. rewrite !get_filt. destruct (get k m); [now rewrite E|reflexivity]. Qed.

Definition same_change (a a' : action) : Prop :=
  match a, a' with
  | ANone, ANone => True
  | ADeleteVertices l, ADeleteVertices l' => Permutation l l'
  | ADeleteEdges l, ADeleteEdges l' => Permutation l l'
  | ADeleteVProps l, ADeleteVProps l' => Permutation l l'
  | ADeleteEProps l, ADeleteEProps l' => Permutation l l'
  | ASetVProps l n x, ASetVProps l' n' x' => Permutation l l' /\ n = n' /\ x = x'
  | ASetEProps l n x, ASetEProps l' n' x' => Permutation l l' /\ n = n' /\ x = x'
  | _, _ => False
  end.
Lemma same_apply g a a' : same_change a a' -> g_apply g a = g_apply g a'.
Proof.
  destruct a, a'; cbn [same_change]; try contradiction; intros P; cbn [g_apply]; try reflexivity.
  - unfold g_delete_vertices, incident. f_equal; apply filt_same; intros x; now rewrite ?(inb_perm _ P).
  - unfold g_delete_edges. f_equal; apply filt_same; intros x; now rewrite ?(inb_perm _ P).
  - unfold g_delete_vertex_properties. f_equal; apply filt_same; intros x; now rewrite ?(inb_perm _ P).
  - unfold g_delete_edge_properties. f_equal; apply filt_same; intros x; now rewrite ?(inb_perm _ P).
  - destruct P as (P & <- & <-). unfold g_set_vertex_properties. f_equal. apply omap_ext. intros k. rewrite !get_fold_set. now rewrite (inb_perm _ P).
  - destruct P as (P & <- & <-). unfold g_set_edge_properties. f_equal. apply omap_ext. intros k. rewrite !get_fold_set. now rewrite (inb_perm _ P).
Qed.

(** ** The answer a call acts on *)
Definition same_value (r r' : outcome outv) : Prop :=
  match r, r' with Ok v, Ok v' => same_elements v v' | Err e, Err e' => e = e' | Panic, Panic => True | _, _ => False end.
Lemma same_last {S} (ops ops' : txn_ops S) s q : same_answer (db_get ops s q) (db_get ops' s q) -> same_value (answer ops s q) (answer ops' s q).
Proof.
  unfold answer. destruct (db_get ops s q) as [l|e|], (db_get ops' s q) as [l'|e'|]; cbn [same_answer]; try contradiction; auto.
  intros F. apply same_rev in F. inversion F; cbn; auto.
Qed.

Lemma mem_write_gof : forall dbg h m ord ord' q o r r' m1 m2, mem_run dbg h = Some m ->
  uncut (mem_ops dbg ord) m q -> o = ODelete q \/ (exists n x, o = OSetProperties q n x) ->
  exec (mem_ops dbg ord) m o = (r, m1) -> r <> Panic ->
  exec (mem_ops dbg ord') m o = (r', m2) -> r' <> Panic ->
  r = r' /\ gof m1 = gof m2.
Proof.
  intros dbg h m o1 o2 q o r r' m1 m2 R U D E N E' N'.
  pose proof (@run_mirror dbg h m R) as M.
  destruct (@mem_effect dbg o1 m o r m1 M E N) as [-> G]. destruct (@mem_effect dbg o2 m o r' m2 M E' N') as [-> G'].
  pose proof (@C64_mem_uncut dbg m o1 o2 q U) as A. apply same_last in A.
  assert (fst (request (mem_ops dbg o1) m (gof m) o) = fst (request (mem_ops dbg o2) m (gof m) o) /\
          same_change (snd (request (mem_ops dbg o1) m (gof m) o)) (snd (request (mem_ops dbg o2) m (gof m) o))) as [Er Ea].
  { clear - A D. destruct D as [->|(n & x & ->)]; cbn [request];
      destruct (answer (mem_ops dbg o1) m q) as [[l|l|l|l|l]|e|], (answer (mem_ops dbg o2) m q) as [[l'|l'|l'|l'|l']|e'|]; cbn in A |- *; try contradiction; subst; try (split; [reflexivity|exact I]); split; try reflexivity.
    - now apply Permutation_map.
    - exact A.
    - unfold vprop_keys. now apply Permutation_flat_map.
    - unfold eprop_keys. now apply Permutation_flat_map.
    - conj; try reflexivity. now apply Permutation_map.
    - conj; try reflexivity. exact A. }
  split; [exact Er|]. now rewrite G, (same_apply _ _ _ Ea), <- G'.
Qed.

Theorem C64_mem_write : forall dbg h m ord ord' q o r r' m1 m2, mem_run dbg h = Some m ->
  uncut (mem_ops dbg ord) m q -> o = ODelete q \/ (exists n x, o = OSetProperties q n x) ->
  exec (mem_ops dbg ord) m o = (r, m1) -> r <> Panic ->
  exec (mem_ops dbg ord') m o = (r', m2) -> r' <> Panic ->
  r = r' /\ exists g, shows (mem_ops dbg ord) m1 g /\ shows (mem_ops dbg ord') m2 g.
Proof.
  intros dbg h m o1 o2 q o r r' m1 m2 R U D E N E' N'. destruct (@mem_write_gof dbg h m o1 o2 q o r r' m1 m2 R U D E N E' N') as [-> G].
  split; [reflexivity|]. exists (gof m1). split; [exact (@mem_shows_next dbg h m R o1 o _ m1 o1 E N)|].
  rewrite G. exact (@mem_shows_next dbg h m R o2 o _ m2 o2 E' N').
Qed.

(** So no query that reads no property index tells the two databases apart. *)
Theorem C64_mem_write_unseen : forall dbg h m ord ord' q o r r' m1 m2, mem_run dbg h = Some m ->
  uncut (mem_ops dbg ord) m q -> o = ODelete q \/ (exists n x, o = OSetProperties q n x) ->
  exec (mem_ops dbg ord) m o = (r, m1) -> r <> Panic ->
  exec (mem_ops dbg ord') m o = (r', m2) -> r' <> Panic ->
  forall q' ord1 ord2, index_names q' = [] ->
  db_get (mem_ops dbg ord1) m1 q' <> Panic -> db_get (mem_ops dbg ord2) m2 q' <> Panic ->
  db_get (mem_ops dbg ord1) m1 q' = db_get (mem_ops dbg ord2) m2 q'.
Proof.
  intros dbg h m o1 o2 q o r r' m1 m2 R U D E N E' N' q' p1 p2 F X1 X2.
  destruct (@mem_write_gof dbg h m o1 o2 q o r r' m1 m2 R U D E N E' N') as [_ G].
  apply (@C54_mem_unseen dbg (h ++ [(o1, o)]) m1 (h ++ [(o2, o)]) m2 p1 p2 q'); auto.
  - rewrite mem_run_snoc, R. unfold mem_step. cbn [fst snd]. rewrite E. destruct r; [reflexivity|reflexivity|now elim N].
  - rewrite mem_run_snoc, R. unfold mem_step. cbn [fst snd]. rewrite E'. destruct r'; [reflexivity|reflexivity|now elim N'].
Qed.

(** ** A case, and what does not hold *)
Definition by_name : query := QVertexWithPropertyPresence n_name.
Definition m_rep : option memory := mem_run false hrep.
Definition done (o : order) (x : op) : option (outcome res * memory) :=
  match m_rep with Some m => Some (exec (mem_ops false o) m x) | None => None end.
Definition left_ (o : order) (x : op) : outcome (list outv) :=
  match done o x with Some (_, m) => db_get (mem_ops false id_order) m QAllEdge | None => Panic end.

(** The edges of the vertices with the property: ten at most, and both go in
    whatever order they come; one at most, and it depends on the order which one
    is left. *)
Example C64_write_case :
  match m_rep with
  | Some m =>
    uncut (mem_ops false id_order) m (QPipe by_name Outbound 10 None) /\
    db_get (mem_ops false id_order) m QAllEdge = Ok [Edges [e12; e21]] /\
    left_ id_order (ODelete (QPipe by_name Outbound 10 None)) = Ok [Edges []] /\
    left_ other_order (ODelete (QPipe by_name Outbound 10 None)) = Ok [Edges []] /\
    left_ id_order (ODelete (QPipe by_name Outbound 1 None)) = Ok [Edges [e21]] /\
    left_ other_order (ODelete (QPipe by_name Outbound 1 None)) = Ok [Edges [e12]]
  | None => False
  end.
Proof.
  destruct m_rep as [m|] eqn:R; [|discriminate R].
  assert (forall q r (o : order), match m_rep with Some m => db_get (mem_ops false o) m q | None => Panic end = r ->
    db_get (mem_ops false o) m q = r) as K by (intros q r o; now rewrite R).
  split; [split; [exact I|]; intros k; assert (db_get (mem_ops false id_order) m (QPipe by_name Outbound 10 None) = Ok [Edges [e12; e21]]) as E by (apply K; reflexivity); rewrite E; intros [= <-]; reflexivity|].
  split; [apply K; reflexivity|]. repeat split; reflexivity.
Qed.

Theorem C64_cut_write_refuted : ~ (forall dbg h m ord ord' q r r' m1 m2, mem_run dbg h = Some m ->
  exec (mem_ops dbg ord) m (ODelete q) = (r, m1) -> exec (mem_ops dbg ord') m (ODelete q) = (r', m2) -> r <> Panic -> r' <> Panic ->
  db_get (mem_ops dbg id_order) m1 QAllEdge = db_get (mem_ops dbg id_order) m2 QAllEdge).
Proof.
  intros A. set (o := ODelete (QPipe by_name Outbound 1 None)).
  assert (match done id_order o, done other_order o with
          | Some (Ok _, m1), Some (Ok _, m2) => db_get (mem_ops false id_order) m1 QAllEdge = db_get (mem_ops false id_order) m2 QAllEdge
          | _, _ => True end) as X.
  { unfold done. destruct m_rep as [m|] eqn:R; [|exact I].
    destruct (exec (mem_ops false id_order) m o) as [[r| |] m1] eqn:E1; try exact I.
    destruct (exec (mem_ops false other_order) m o) as [[r'| |] m2] eqn:E2; try exact I.
    apply (A false hrep m id_order other_order _ _ _ m1 m2 R E1 E2); discriminate. }
  assert (@Ok (list outv) [Edges [e21]] = Ok [Edges [e12]]) as Y by exact X. discriminate Y.
Qed.
