(** * C55: calls that have nothing to do with each other

    [apart o o'] (Foot.v): neither call is [index_property], and neither can
    change a vertex, edge or property that the other depends on. *)
From Verif Require Import Base OMap Json Types Util Db Mem Rdb Spec QueryFacts SpecFacts QueryTrust JsonFacts UtilFacts
  MemFacts MemRefine MemHist KeyFacts RdbSpec RdbRep RdbWrite RdbPut RdbRefine RdbGraph RdbHist RdbCrash Stages Effects
  Claims PropsMem PropsMemIndex PropsRdb PropsRdbIndex Examples Agree Retry PropsRetry Conc Foot RdbFoot RdbApart RdbCommute SpecFoot MemFoot.

Set Implicit Arguments.

(** ** RocksDB: whatever the history, the codec, the hash function and the
    outcome of the writes *)
Section Rdb.
  Variable H : list byte -> N.
  Variable enc : json -> bytes.
  Variable dec : bytes -> option json.
  Notation ops := (rdb_ops H enc dec).
  Notation run := (rdb_run H enc dec).

  (** Both orders give the same results and the same database. *)
  Theorem C55_rdb_either_order h e e' o o' r r' s1 s12 r2 r2' s2 s21 : apart o o' ->
    exec (ops e) (run h) o = (r, s1) -> exec (ops e') s1 o' = (r', s12) ->
    exec (ops e') (run h) o' = (r2', s2) -> exec (ops e) s2 o = (r2, s21) ->
    r2 = r /\ r2' = r' /\ r_db s21 = r_db s12 /\ r_indexed s21 = r_indexed s12.
  Proof.
    intros A E1 E12 E2 E21. destruct (@steps_commute H enc dec (run h) e e' o o' (run_keyed H enc dec h) A) as (X1 & X2 & X3 & X4).
    unfold rdb_step in *. cbn [fst snd] in *. rewrite E1, E2 in *. cbn [fst snd] in *. rewrite E12, E21 in *. cbn [fst snd] in *. auto.
  Qed.

  (** A query whose answer does not depend on what a call changes is not
      affected by the call. *)
  Theorem C55_rdb_unaffected h e o q : apart o (OGet q) ->
    db_get (ops e) (run (h ++ [(e, o)])) q = db_get (ops e) (run h) q.
  Proof.
    intros A. rewrite rdb_run_snoc. cbn [fst snd]. destruct (@steps_commute H enc dec (run h) e e o (OGet q) (run_keyed H enc dec h) A) as (_ & X & _).
    unfold rdb_step in X. cbn [fst snd exec] in X.
    destruct (db_get (ops e) (snd (exec (ops e) (run h) o)) q), (db_get (ops e) (run h) q); cbn in X; congruence.
  Qed.

  (** A call can be moved past any number of calls it is apart from. *)
  Fixpoint answers (s : rstate) (l : list (renv * op)) : list (outcome res) :=
    match l with
    | [] => []
    | (e, o) :: l => fst (exec (ops e) s o) :: answers (snd (exec (ops e) s o)) l
    end.
  Definition final (s : rstate) (l : list (renv * op)) : rstate := fold_left (fun s x => snd (exec (ops (fst x)) s (snd x))) l s.

  Lemma answers_same l : forall s s', r_db s' = r_db s -> r_indexed s' = r_indexed s ->
    answers s' l = answers s l /\ r_db (final s' l) = r_db (final s l) /\ r_indexed (final s' l) = r_indexed (final s l).
  Proof.
    induction l as [|[e o] l IH]; intros s s' D I; cbn [answers final fold_left fst snd]; [auto|].
    destruct s as [d ix log], s' as [d' ix' log']. cbn in D, I. subst d' ix'.
    assert (fst (exec (ops e) (RState d ix log') o) = fst (exec (ops e) (RState d ix log) o) /\
      r_db (snd (exec (ops e) (RState d ix log') o)) = r_db (snd (exec (ops e) (RState d ix log) o)) /\
      r_indexed (snd (exec (ops e) (RState d ix log') o)) = r_indexed (snd (exec (ops e) (RState d ix log) o))) as (X1 & X2 & X3).
    { change (exec (ops e) (RState d ix log') o) with (rdb_step H enc dec (RState d ix log') (e, o)).
      change (exec (ops e) (RState d ix log) o) with (rdb_step H enc dec (RState d ix log) (e, o)).
      rewrite <- !RdbAlone.alone_step. generalize (RdbProg.prog_of H enc dec e o). intros p. revert d ix log log'.
      induction p as [x|k IHp|k IHp|k IHp|k IHp|ix2 k IHp|b k IHp]; intros d ix log log'; cbn; auto. destruct (wok e); cbn; auto. }
    destruct (IH (snd (exec (ops e) (RState d ix log) o)) (snd (exec (ops e) (RState d ix log') o)) X2 X3) as (Y1 & Y2 & Y3).
    rewrite X1, Y1. auto.
  Qed.

  Theorem C55_rdb_past h e o l : Forall (fun x => apart o (snd x)) l ->
    fst (exec (ops e) (final (run h) l) o) = fst (exec (ops e) (run h) o) /\
    answers (run (h ++ [(e, o)])) l = answers (run h) l /\
    r_db (run (h ++ (e, o) :: l)) = r_db (run (h ++ l ++ [(e, o)])) /\
    r_indexed (run (h ++ (e, o) :: l)) = r_indexed (run (h ++ l ++ [(e, o)])).
  Proof.
    intros F. assert (forall h x, final (run h) x = run (h ++ x)) as Fin by (intros; unfold rdb_run; now rewrite fold_left_app).
    rewrite Fin, rdb_run_snoc. cbn [fst snd].
    assert (run (h ++ (e, o) :: l) = final (snd (exec (ops e) (run h) o)) l) as ->.
    { rewrite <- Fin. reflexivity. }
    assert (run (h ++ l ++ [(e, o)]) = snd (exec (ops e) (run (h ++ l)) o)) as ->.
    { rewrite app_assoc, rdb_run_snoc. reflexivity. }
    revert h. induction F as [|[e' o'] l A F IH]; intros h; cbn [answers final fold_left fst snd].
    - rewrite app_nil_r. auto.
    - cbn [snd] in A. destruct (@steps_commute H enc dec (run h) e e' o o' (run_keyed H enc dec h) A) as (X1 & X2 & X3 & X4).
      unfold rdb_step in *. cbn [fst snd] in *.
      assert (run (h ++ [(e', o')]) = snd (exec (ops e') (run h) o')) as R' by now rewrite rdb_run_snoc.
      destruct (IH (h ++ [(e', o')])) as (Y1 & Y2 & Y3 & Y4). rewrite <- app_assoc in Y1, Y3, Y4. cbn [app] in Y1, Y3, Y4. rewrite R' in Y1, Y2, Y3, Y4.
      destruct (@answers_same l (snd (exec (ops e) (snd (exec (ops e') (run h) o')) o)) (snd (exec (ops e') (snd (exec (ops e) (run h) o)) o'))) as (Z1 & Z2 & Z3);
        [now symmetry|now symmetry|].
      fold (final (snd (exec (ops e') (snd (exec (ops e) (run h) o)) o')) l).
      rewrite Y1, X1, X2, Z1, Y2, Z2, Z3, Y3, Y4. auto.
  Qed.
End Rdb.

(** ** Memory: debug and release builds, any history, property indexes included
    (also the stale ones of release builds, C14), any iteration order of hash
    sets.  A panic poisons the database, so nothing is claimed about it. *)

(** The results of some calls made one after the other, from [st]. *)
Fixpoint mem_answers (dbg : bool) (st : mem_db) (l : list (order * op)) : list (outcome res) :=
  match l with
  | [] => []
  | x :: l => fst (mem_step dbg st x) :: mem_answers dbg (snd (mem_step dbg st x)) l
  end.

Lemma mem_answers_app dbg l : forall st l', mem_answers dbg st (l ++ l') =
  mem_answers dbg st l ++ mem_answers dbg (fold_left (fun st x => snd (mem_step dbg st x)) l st) l'.
Proof. induction l as [|x l IH]; intros st l'; cbn [app mem_answers fold_left]; [reflexivity|]. now rewrite IH. Qed.

Lemma mem_run_app dbg h l : mem_run dbg (h ++ l) = fold_left (fun st x => snd (mem_step dbg st x)) l (mem_run dbg h).
Proof. unfold mem_run. apply fold_left_app. Qed.
Lemma poisoned dbg l : fold_left (fun st x => snd (mem_step dbg st x)) l None = None.
Proof. induction l; cbn; auto. Qed.

(** Databases that answer every sequence of calls in the same way. *)
Definition mem_indistinguishable (dbg : bool) (st st' : mem_db) : Prop := forall l, mem_answers dbg st' l = mem_answers dbg st l.

Lemma alike_indistinguishable dbg h h' m m' : mem_run dbg h = Some m -> mem_run dbg h' = Some m' -> alike m m' -> mem_indistinguishable dbg (Some m) (Some m').
Proof.
  intros R R' A l. induction l as [|x l IH] using rev_ind; [reflexivity|].
  rewrite !mem_answers_app. cbn [mem_answers]. rewrite IH. do 2 f_equal.
  pose proof (@alike_history dbg h h' m m' l R R' A x) as E. now rewrite !mem_run_app, R, R' in E.
Qed.

Lemma swap dbg h w w' o o' m12 : apart o o' -> mem_run dbg (h ++ [(w, o); (w', o')]) = Some m12 ->
  exists m21, mem_run dbg (h ++ [(w', o'); (w, o)]) = Some m21 /\ alike m12 m21 /\
    fst (mem_step dbg (mem_run dbg (h ++ [(w', o')])) (w, o)) = fst (mem_step dbg (mem_run dbg h) (w, o)) /\
    fst (mem_step dbg (mem_run dbg (h ++ [(w, o)])) (w', o')) = fst (mem_step dbg (mem_run dbg h) (w', o')).
Proof.
  intros A Run. change [(w, o); (w', o')] with ([(w, o)] ++ [(w', o')]) in Run. rewrite app_assoc, mem_run_snoc in Run.
  destruct (mem_run dbg (h ++ [(w, o)])) as [m1|] eqn:R1; [|discriminate Run].
  pose proof R1 as R1'. rewrite mem_run_snoc in R1'. destruct (mem_run dbg h) as [m|] eqn:R; [|discriminate R1'].
  cbn [mem_step fst snd] in R1', Run.
  destruct (exec (mem_ops dbg w) m o) as [r a] eqn:E1. destruct (exec (mem_ops dbg w') m1 o') as [r' b] eqn:E12.
  assert (r <> Panic /\ a = m1) as (N & ->) by (destruct r; cbn in R1'; [split; [discriminate|congruence]..|discriminate]).
  assert (r' <> Panic /\ b = m12) as (N' & ->) by (destruct r'; cbn in Run; [split; [discriminate|congruence]..|discriminate]).
  destruct (run_weak dbg _ R) as (K & M & _), (run_weak dbg _ R1) as (K1 & M1 & _).
  destruct (@mem_commute dbg w w' m o o' m1 m12 r r' M K A E1 M1 K1 E12) as (m2 & E2 & X).
  assert (mem_run dbg (h ++ [(w', o')]) = Some m2) as R2.
  { rewrite mem_run_snoc, R. cbn [mem_step fst snd]. rewrite E2. now destruct r'; [..|elim N']. }
  destruct (run_weak dbg _ R2) as (K2 & M2 & _). destruct (X M2 K2) as (m21 & E21 & L).
  exists m21. conj.
  - change [(w', o'); (w, o)] with ([(w', o')] ++ [(w, o)]). rewrite app_assoc, mem_run_snoc, R2. cbn [mem_step fst snd]. rewrite E21. now destruct r; [..|elim N].
  - exact L.
  - rewrite R2. cbn [mem_step fst snd]. rewrite E1, E21. now destruct r.
  - cbn [mem_step fst snd]. rewrite E2, E12. now destruct r'.
Qed.

(** Both orders give the same results, and databases that cannot be told apart. *)
Theorem C55_mem_either_order dbg h w w' o o' : apart o o' -> mem_run dbg (h ++ [(w, o); (w', o')]) <> None ->
  mem_run dbg (h ++ [(w', o'); (w, o)]) <> None /\
  fst (mem_step dbg (mem_run dbg (h ++ [(w', o')])) (w, o)) = fst (mem_step dbg (mem_run dbg h) (w, o)) /\
  fst (mem_step dbg (mem_run dbg (h ++ [(w, o)])) (w', o')) = fst (mem_step dbg (mem_run dbg h) (w', o')) /\
  mem_indistinguishable dbg (mem_run dbg (h ++ [(w, o); (w', o')])) (mem_run dbg (h ++ [(w', o'); (w, o)])).
Proof.
  intros A N. destruct (mem_run dbg (h ++ [(w, o); (w', o')])) as [m12|] eqn:R; [|now elim N].
  destruct (@swap dbg h w w' o o' m12 A R) as (m21 & R' & L & X & Y). rewrite R'. conj; auto; [discriminate|].
  exact (@alike_indistinguishable _ _ _ _ _ R R' L).
Qed.

(** A query whose answer does not depend on what a call changes is not affected
    by the call. *)
Theorem C55_mem_unaffected dbg h w o q wq m m' : apart o (OGet q) -> mem_run dbg h = Some m -> mem_run dbg (h ++ [(w, o)]) = Some m' ->
  db_get (mem_ops dbg wq) m' q = db_get (mem_ops dbg wq) m q.
Proof.
  intros (N1 & N2 & D) R R'. pose proof R' as E. rewrite mem_run_snoc, R in E. cbn [mem_step fst snd] in E.
  destruct (exec (mem_ops dbg w) m o) as [r a] eqn:E1. assert (a = m') as -> by (destruct r; cbn in E; congruence).
  destruct (run_weak dbg _ R) as (K & M & _), (run_weak dbg _ R') as (K' & M' & _).
  pose proof (@call_within dbg w m o M N1) as F. rewrite E1 in F. cbn [snd] in F.
  refine (proj1 (@query_same dbg wq m m' M M' K K' q _)). eapply agree_sub; [exact F|]. intros x Lx Ax.
  exact (proj1 (D x) (@request_acts dbg w m o x M Ax) Lx).
Qed.

(** A call can be moved past any number of calls it is apart from. *)
Theorem C55_mem_past dbg h w o l : Forall (fun x => apart o (snd x)) l -> mem_run dbg (h ++ (w, o) :: l) <> None ->
  mem_run dbg (h ++ l ++ [(w, o)]) <> None /\
  fst (mem_step dbg (mem_run dbg (h ++ l)) (w, o)) = fst (mem_step dbg (mem_run dbg h) (w, o)) /\
  mem_answers dbg (mem_run dbg (h ++ [(w, o)])) l = mem_answers dbg (mem_run dbg h) l /\
  mem_indistinguishable dbg (mem_run dbg (h ++ (w, o) :: l)) (mem_run dbg (h ++ l ++ [(w, o)])).
Proof.
  intros F. revert h. induction F as [|[w' o'] l A F IH]; intros h N.
  - rewrite app_nil_r. cbn [app] in *. conj; auto. intros l. reflexivity.
  - cbn [snd] in A.
    destruct (mem_run dbg (h ++ [(w, o); (w', o')])) as [m12|] eqn:R.
    2:{ elim N. change ((w, o) :: (w', o') :: l) with ([(w, o); (w', o')] ++ l). rewrite app_assoc, mem_run_app, R. apply poisoned. }
    destruct (@swap dbg h w w' o o' m12 A R) as (m21 & R' & L & X & Y).
    pose proof (@alike_indistinguishable _ _ _ _ _ R R' L) as Ind.
    assert (forall l, (mem_run dbg ((h ++ [(w, o); (w', o')]) ++ l) = None -> False) -> mem_run dbg ((h ++ [(w', o'); (w, o)]) ++ l) <> None /\
      mem_indistinguishable dbg (mem_run dbg ((h ++ [(w, o); (w', o')]) ++ l)) (mem_run dbg ((h ++ [(w', o'); (w, o)]) ++ l))) as Ext.
    { clear - R R' Ind. intros l Nn. split.
      - intros Z. rewrite mem_run_app in Z. rewrite mem_run_app in Nn. rewrite R in Nn. rewrite R' in Z.
        pose proof (Ind (l ++ [(id_order, OSync)])) as E. rewrite !mem_answers_app in E. rewrite Z in E. cbn [mem_answers mem_step fst snd] in E.
        apply app_inj_tail in E as [_ E]. match type of Nn with ?x = None -> _ => destruct x as [mm|] end; [discriminate E|]. now apply Nn.
      - intros k. pose proof (Ind (l ++ k)) as E. rewrite !mem_answers_app in E. rewrite (mem_run_app dbg (h ++ [(w, o); (w', o')]) l), (mem_run_app dbg (h ++ [(w', o'); (w, o)]) l), R, R'.
        assert (mem_answers dbg (Some m21) l = mem_answers dbg (Some m12) l) as El by apply Ind. rewrite El in E. now apply app_inv_head in E. }
    assert (h ++ (w, o) :: (w', o') :: l = (h ++ [(w, o); (w', o')]) ++ l) as Eq1 by now rewrite <- app_assoc.
    rewrite Eq1 in N. destruct (Ext l N) as [N' Ind'].
    assert ((h ++ [(w', o'); (w, o)]) ++ l = (h ++ [(w', o')]) ++ (w, o) :: l) as Eq2 by now rewrite <- !app_assoc.
    rewrite Eq2 in N', Ind'. destruct (IH (h ++ [(w', o')]) N') as (Z1 & Z2 & Z3 & Z4).
    assert (h ++ ((w', o') :: l) ++ [(w, o)] = (h ++ [(w', o')]) ++ l ++ [(w, o)]) as Eq3 by (rewrite <- app_assoc; reflexivity).
    assert (h ++ (w', o') :: l = (h ++ [(w', o')]) ++ l) as Eq4 by (rewrite <- app_assoc; reflexivity).
    rewrite Eq1, Eq3, Eq4. conj.
    + exact Z1.
    + now rewrite Z2, X.
    + cbn [mem_answers]. rewrite Y. f_equal.
      assert (forall h x, snd (mem_step dbg (mem_run dbg h) x) = mem_run dbg (h ++ [x])) as Sn by (intros; now rewrite mem_run_snoc).
      rewrite !Sn, <- app_assoc. cbn [app]. rewrite R. rewrite <- Z3, <- app_assoc. cbn [app]. rewrite R'. symmetry. apply Ind.
    + intros k. now rewrite Z4, Ind'.
Qed.

(** ** Which calls are apart *)

(** Reads. *)
Lemma gets_apart q q' : apart (OGet q) (OGet q').
Proof. split; [discriminate|split; [discriminate|]]. intros x. split; intros []. Qed.

(** Setting properties of different vertices, or different properties. *)
Lemma sets_apart ids ids' n n' x x' : (forall id, In id ids -> In id ids' -> n <> n') ->
  apart (OSetProperties (QSpecificVertex ids) n x) (OSetProperties (QSpecificVertex ids') n' x').
Proof.
  intros D. split; [discriminate|split; [discriminate|]]. intros y. cbn [alters depends yields looks_at property_of]. split.
  - intros (z & (id & Hi & ->) & ->) [(w & (j & Hj & ->) & E)|(j & _ & E)]; cbn in E; [|discriminate]. injection E as -> ->. exact (D j Hi Hj eq_refl).
  - intros (z & (id & Hi & ->) & ->) [(w & (j & Hj & ->) & E)|(j & _ & E)]; cbn in E; [|discriminate]. injection E as -> ->. exact (D j Hj Hi eq_refl).
Qed.

(** Creating an edge, and setting a property of one of its ends. *)
Lemma edge_set_apart e ids n x : apart (OCreateEdge e) (OSetProperties (QSpecificVertex ids) n x).
Proof.
  split; [discriminate|split; [discriminate|]]. intros y. cbn [alters depends yields looks_at]. split.
  - intros -> [(z & (id & Hi & ->) & E)|(id & _ & E)]; discriminate.
  - intros (z & (id & Hi & ->) & E) [X|[X|X]]; cbn in E; congruence.
Qed.

(** Setting a property of some vertices, and looking another property up. *)
Lemma set_lookup_apart ids n x n' y : n <> n' -> apart (OSetProperties (QSpecificVertex ids) n x) (OGet (QVertexWithPropertyValue n' y)).
Proof.
  intros N. split; [discriminate|split; [discriminate|]]. intros z. cbn [alters depends yields looks_at]. split; [|intros []].
  intros (w & (id & Hi & ->) & E) [(j & ->)|[(j & ->)|(e & ->)]]; cbn in E; congruence.
Qed.

(** Deleting a vertex is not apart from creating an edge to it, and the order
    does matter. *)
Lemma delete_edge_not_apart : ~ apart (ODelete (q_vertex u2)) (OCreateEdge e12).
Proof.
  intros (_ & _ & D). apply (proj1 (D (AVertex u2))).
  - exists (AVertex u2). split; [exists u2; split; [now left|reflexivity]|now left].
  - cbn. auto.
Qed.

(** The theorems apply, in both datastores: an edge is created and a property of
    its outbound vertex is set. *)
Example C55_rdb_example : exists h o o', apart o o' /\
  (exists e s1 s12, exec (rdb_ops hash0 enc0 dec0 e) (run0 h) o = (Ok (RBoolean true), s1) /\
     exec (rdb_ops hash0 enc0 dec0 e) s1 o' = (Ok RUnit, s12) /\
     db_get ops0 s12 (q_edge e12) = Ok [Edges [e12]] /\
     db_get ops0 s12 (q_vprop u1 n_name) = Ok [VertexProperties [VProps v1 [NProp n_name j_bob]]]).
Proof.
  exists (ok_calls [OCreateVertex v1; OCreateVertex v2]), (OCreateEdge e12), (OSetProperties (q_vertex u1) n_name j_bob).
  split; [apply edge_set_apart|]. exists ok_env. set (h := ok_calls _). set (o := OCreateEdge _). set (o' := OSetProperties _ _ _).
  exists (run0 (h ++ [(ok_env, o)])), (run0 (h ++ [(ok_env, o); (ok_env, o')])).
  assert (forall s e x, exec (rdb_ops hash0 enc0 dec0 e) s x = (fst (exec (rdb_ops hash0 enc0 dec0 e) s x), snd (exec (rdb_ops hash0 enc0 dec0 e) s x))) as Sp
    by (intros; apply surjective_pairing).
  conj.
  - rewrite Sp. f_equal.
  - rewrite Sp. f_equal.
  - vm_compute. reflexivity.
  - vm_compute. reflexivity.
Qed.

Example C55_mem_example : exists h o o', apart o o' /\ index_free o /\ index_free o' /\
  (exists m, mem_run true (calls (h ++ [o; o'])) = Some m /\
     db_get (mem_ops true id_order) m (q_vprop u1 n_name) = Ok [VertexProperties [VProps v1 [NProp n_name j_bob]]] /\
     db_get (mem_ops true id_order) m (q_edge e12) = Ok [Edges [e12]]) /\
  (exists m, mem_run true (calls (h ++ [o'; o])) = Some m /\
     db_get (mem_ops true id_order) m (q_vprop u1 n_name) = Ok [VertexProperties [VProps v1 [NProp n_name j_bob]]] /\
     db_get (mem_ops true id_order) m (q_edge e12) = Ok [Edges [e12]]).
Proof.
  exists [OCreateVertex v1; OCreateVertex v2], (OCreateEdge e12), (OSetProperties (q_vertex u1) n_name j_bob).
  split; [apply edge_set_apart|]. split; [now intros q Hq|]. split; [intros q Hq; injection Hq as <-; reflexivity|].
  split; apply run_with; vm_compute; split; reflexivity.
Qed.

(** A release build with a stale index entry: the lookup answers the same (wrong)
    vertex, wherever another property is set. *)
Example C55_mem_stale_example : exists h o q,
  apart o (OGet q) /\
  (exists m, mem_run false (calls h) = Some m /\ db_get (mem_ops false id_order) m q = Ok [Vertices [v1]] /\
             db_get (mem_ops false id_order) m (q_vprop u1 n_name) = Ok [VertexProperties [VProps v1 [NProp n_name j_3]]]) /\
  (exists m, mem_run false (calls (h ++ [o])) = Some m /\ db_get (mem_ops false id_order) m q = Ok [Vertices [v1]] /\
             db_get (mem_ops false id_order) m (q_vprop u2 n_age) = Ok [VertexProperties [VProps v2 [NProp n_age j_true]]]).
Proof.
  exists [OCreateVertex v1; OCreateVertex v2; OIndexProperty n_name; OSetProperties (q_vertex u1) n_name j_bob; OSetProperties (q_vertex u1) n_name j_3],
    (OSetProperties (q_vertex u2) n_age j_true), (QVertexWithPropertyValue n_name j_bob).
  split; [apply set_lookup_apart; discriminate|]. split; apply run_with; vm_compute; split; reflexivity.
Qed.
