(** * C56: RocksDB reads that fail

    [fenv] (RdbFault.v) says which reads fail during a call: any set of keys can
    be unreadable and any iterator can break off after any number of items.
    [f_ops] is the datastore with such reads, [rdb_ops] the same datastore when
    all reads succeed; [f_run h] is the state after the calls [h], each with its
    own failing reads.  [Err EDatastore] is the error RocksDB reports. *)
From Verif Require Import Base OMap Json Types Util Db Mem Rdb Spec QueryFacts SpecFacts QueryTrust JsonFacts UtilFacts
  MemFacts MemRefine MemHist KeyFacts RdbSpec RdbRep RdbWrite RdbPut RdbRefine RdbGraph RdbHist RdbCrash Stages Effects
  Claims PropsMem PropsMemIndex PropsRdb PropsRdbIndex Examples RdbFault RdbFaultFacts RdbFaultStep.

Set Implicit Arguments.

(** The call asks for the number of all vertices or of all edges. *)
Definition counts_all (o : op) : bool := match o with OGet q => tallies q | _ => false end.

Section Faults.
  Variable H : list byte -> N.
  Variable enc : json -> bytes.
  Variable dec : bytes -> option json.
  Notation fops := (f_ops H enc dec).
  Notation ops := (rdb_ops H enc dec).

  (** If no read fails, this is the datastore of the other properties. *)
  Theorem C56_rdb_no_fault fe s o : (forall c k, fe_get fe c k = false) -> (forall c k, fe_scan fe c k = None) ->
    exec (fops fe) s o = exec (ops (fe_env fe)) s o.
  Proof.
    intros G S. assert (NF : ~ faulty fe) by (intros (c & k & [E|E]); [rewrite G in E; discriminate|apply E, S]).
    pose proof (@call_may H enc dec fe s o) as M. cbv zeta in M. unfold f_step, rdb_step in M. cbn [fst snd] in M.
    destruct o; try (destruct M as [M|(p & _)]; [exact M|contradiction]).
    destruct M as (E & [(p & _)|[F|(p & _)]]); [contradiction| |contradiction].
    rewrite (surjective_pairing (exec (fops fe) s (OGet q))), E, F. reflexivity.
  Qed.

  (** A call does and returns exactly what it would without the failures, or it
      returns the error and the stored data is as before.  Only a failed
      [index_property] leaves a trace: the name in the set kept in memory. *)
  Theorem C56_rdb_call_partial fe s o r s' : counts_all o = false -> exec (fops fe) s o = (r, s') ->
    exec (ops (fe_env fe)) s o = (r, s') \/
    (r = Err EDatastore /\ r_db s' = r_db s /\ r_log s' = r_log s /\
     (s' = s \/ exists n, o = OIndexProperty n /\ r_indexed s' = add n (r_indexed s))).
  Proof.
    intros C E. pose proof (@call_may H enc dec fe s o) as M. cbv zeta in M. unfold f_step in M. cbn [fst snd] in M. rewrite E in M.
    assert (D : mays fe (r, s') (rdb_step H enc dec s (fe_env fe, o)) (rdb_step H enc dec s (refusing (fe_env fe), o)) ->
      exec (ops (fe_env fe)) s o = (r, s') \/
      (r = Err EDatastore /\ r_db s' = r_db s /\ r_log s' = r_log s /\
       (s' = s \/ exists n, o = OIndexProperty n /\ r_indexed s' = add n (r_indexed s)))).
    { intros [X|(p & X & Y)]; [left; symmetry; exact X|right]. cbn [fst snd] in X, Y. subst r.
      assert (K : (exists n, o = OIndexProperty n) \/ (forall n, o <> OIndexProperty n))
        by (clear; destruct o; (left; eexists; reflexivity) || (right; discriminate)).
      destruct K as [(n & ->)|N].
      - unfold rdb_step in Y. cbn [exec fst snd rdb_ops t_index_property resw] in Y. unfold rdb_index_property in Y.
        destruct (mem n (r_indexed s)); [subst; auto|]. rewrite built_refused in Y. subst s'. cbn. conj; auto. right. eauto.
      - rewrite (@refused H enc dec fe s o N) in Y. subst s'. auto. }
    destruct o; try exact (D M). cbn [counts_all] in C. destruct M as (X & [(p & Y)|[Y|(p & Y & _)]]); [|left|congruence].
    - right. cbn [fst snd] in X, Y. cbn in X. subst. auto.
    - unfold rdb_step in X, Y. cbn [fst snd] in X, Y. rewrite X, Y. apply surjective_pairing.
  Qed.

  (** Whatever the call (counting calls included): the effect. *)
  Theorem C56_rdb_effect fe s o r s' : exec (fops fe) s o = (r, s') ->
    s' = snd (exec (ops (fe_env fe)) s o) \/
    (r = Err EDatastore /\ s' = snd (exec (ops (refusing (fe_env fe))) s o)).
  Proof.
    intros E. pose proof (@call_may H enc dec fe s o) as M. cbv zeta in M. unfold f_step, rdb_step in M. cbn [fst snd] in M. rewrite E in M.
    destruct o; try (destruct M as [M|(p & X & Y)]; [left; now rewrite <- M|right; auto]). left. apply M.
  Qed.

  (** Acknowledged means done: a changing call that returns [Ok] had its full
      effect, whatever reads failed. *)
  Theorem C56_rdb_acknowledged fe s o r s' : (forall q, o <> OGet q) -> exec (fops fe) s o = (Ok r, s') ->
    exec (ops (fe_env fe)) s o = (Ok r, s').
  Proof.
    intros G E. destruct (C56_rdb_call_partial fe s o (r := Ok r) (s' := s')) as [X|(X & _)]; [|exact E|exact X|discriminate].
    destruct o; try reflexivity. now destruct (G q).
  Qed.

  (** A query is answered as if nothing had failed, or not at all. *)
  Theorem C56_rdb_get_partial fe s q : tallies q = false ->
    db_get (fops fe) s q = Err EDatastore \/ db_get (fops fe) s q = db_get (ops (fe_env fe)) s q.
  Proof.
    intros T. destruct (@C56_rdb_call_partial fe s (OGet q) (omapo ROut (db_get (fops fe) s q)) s T eq_refl) as [X|(X & _)].
    - right. cbn [exec] in X. destruct (db_get (fops fe) s q), (db_get (ops (fe_env fe)) s q); cbn in X; congruence.
    - left. destruct (db_get (fops fe) s q); cbn in X; congruence.
  Qed.

  (** The states reachable with failing reads are states reachable with
      failing writes only: everything proved about all histories holds here. *)
  Theorem C56_rdb_history h : exists h',
    Forall2 (fun x y => snd y = snd x /\ (fst y = fe_env (fst x) \/ fst y = refusing (fe_env (fst x)))) h h' /\
    f_run H enc dec h = rdb_run H enc dec h'.
  Proof.
    induction h as [|[fe o] h IH] using rev_ind; [exists []; split; [constructor|reflexivity]|].
    destruct IH as (h' & F & E). unfold f_run. rewrite fold_left_app. cbn [fold_left]. fold (f_run H enc dec h). rewrite E.
    unfold f_step. cbn [fst snd].
    destruct (exec (fops fe) (rdb_run H enc dec h') o) as [r s'] eqn:X. cbn [snd].
    destruct (C56_rdb_effect fe (rdb_run H enc dec h') o X) as [-> |(_ & ->)].
    - exists (h' ++ [(fe_env fe, o)]). split; [apply Forall2_app; [exact F|constructor; [auto|constructor]]|].
      now rewrite rdb_run_snoc.
    - exists (h' ++ [(refusing (fe_env fe), o)]). split; [apply Forall2_app; [exact F|constructor; [auto|constructor]]|].
      now rewrite rdb_run_snoc.
  Qed.

  (** After any history with failing reads, a query without index lookups
      returns what the graph says, or an error. *)
  Theorem C56_rdb_meaning_partial h fe q : Forall (fun x => good_op enc dec (snd x)) h -> index_names q = [] -> tallies q = false ->
    let g := rgof dec (f_run H enc dec h) in
    db_get (fops fe) (f_run H enc dec h) q = Err EDatastore \/
    (exists ex v, db_get (fops fe) (f_run H enc dec h) q = Ok (ex ++ [v]) /\ evals slt (hm H) g q ex v) \/
    (exists e, db_get (fops fe) (f_run H enc dec h) q = Err e /\ fails slt (hm H) g q e).
  Proof.
    intros Good I T. cbv zeta. destruct (C56_rdb_history h) as (h' & F & ->).
    assert (G : good_history enc dec h').
    { clear - Good F. induction F as [|x y h h' (E & _) F IH]; [constructor|]. inversion Good; subst. constructor; [now rewrite E|apply IH; assumption]. }
    destruct (C56_rdb_get_partial fe (rdb_run H enc dec h') q T) as [-> | ->]; [now left|right].
    apply C08_rdb_query; assumption.
  Qed.

  (** How wrong the count of all vertices or edges can be (see
      C56_rdb_count_refuted): either nothing failed and it is right, or reading
      broke off after [i] items and the error was counted as one more; it is never
      more than one too large, and then the listing is not answered. *)
  Lemma decode_broken {A} (f : kv -> outcome A) o l : length (decode f (broken o l)) =
    match o with None => length l | Some i => S (Nat.min i (length l)) end.
  Proof.
    unfold decode, broken. rewrite map_length. destruct o as [i|]; [|now rewrite map_length].
    rewrite app_length, map_length, firstn_length. cbn [length]. lia.
  Qed.
  Lemma collect_broken {A} (f : kv -> outcome A) i l r : collect (decode f (broken (Some i) l)) <> Ok r.
  Proof.
    unfold decode, broken. rewrite map_app, !map_map. cbn [map]. generalize (firstn i l) as l0. clear. intros l0. revert r.
    induction l0 as [|x l0 IH]; intros r; cbn; [discriminate|].
    destruct (f x) as [y|y|]; cbn; [|discriminate|discriminate].
    match goal with |- context [collect ?c] => destruct (collect c) as [z|z|] eqn:E end; cbn; [|discriminate|discriminate].
    exfalso. exact (IH z E).
  Qed.
  Lemma decode_whole {A} (f : kv -> outcome A) l : decode f (broken None l) = map f l.
  Proof. unfold decode, broken. rewrite map_map. reflexivity. Qed.
  Lemma counted {A} (f : kv -> outcome A) (l : list kv) o :
    (lenN (decode f (broken o l)) <= lenN (map f l) + 1)%N /\
    ((o = None /\ lenN (decode f (broken o l)) = lenN (map f l)) \/
     (exists i, o = Some i /\ lenN (decode f (broken o l)) = N.min (N.of_nat i) (lenN (map f l)) + 1)%N).
  Proof.
    unfold lenN. rewrite decode_broken, map_length. destruct o as [i|]; (split; [lia|]).
    - right. exists i. split; [reflexivity|]. lia.
    - left. auto.
  Qed.
  Lemma listed {A} (g : list A -> outv) (f : kv -> outcome A) l o :
    let got := omapo (@rev outv) (let? l := collect (decode f (broken o l)) in Ok [g l]) in
    let all := omapo (@rev outv) (let? l := collect (map f l) in Ok [g l]) in
    match o with None => got = all | Some _ => forall r, got <> Ok r end.
  Proof.
    cbv zeta. destruct o as [i|]; [|now rewrite decode_whole]. intros r. pose proof (@collect_broken A f i l) as C.
    destruct (collect (decode f (broken (Some i) l))) as [x|x|]; cbn; [now destruct (C x)|discriminate|discriminate].
  Qed.
  Theorem C56_rdb_count fe s q : q = QAllVertex \/ q = QAllEdge -> exists n c,
    db_get (ops (fe_env fe)) s (QCount q) = Ok [Count n] /\ db_get (fops fe) s (QCount q) = Ok [Count c] /\ (c <= n + 1)%N /\
    ((c = n /\ db_get (fops fe) s q = db_get (ops (fe_env fe)) s q) \/
     (exists i, c = N.min i n + 1 /\ forall r, db_get (fops fe) s q <> Ok r))%N.
  Proof.
    assert (forall A (g : list A -> outv) (f : kv -> outcome A) l o n c got all, n = lenN (map f l) -> c = lenN (decode f (broken o l)) ->
      got = omapo (@rev outv) (let? l := collect (decode f (broken o l)) in Ok [g l]) ->
      all = omapo (@rev outv) (let? l := collect (map f l) in Ok [g l]) ->
      (c <= n + 1)%N /\ ((c = n /\ got = all) \/ (exists i, c = N.min i n + 1 /\ forall r, got <> Ok r))%N) as K.
    { intros A g f l o n c got all -> -> -> ->. destruct (counted f l o) as (B & D). split; [exact B|].
      pose proof (listed g f l o) as Li. cbv zeta in Li. destruct D as [(E & L)|(i & E & L)]; subst o; eauto. }
    intros [-> | ->].
    - do 2 eexists. split; [reflexivity|]. split; [reflexivity|].
      apply (K _ Vertices dec_vertex (from (vertex_key H nil_uuid) (cf_of (r_db s) CFV)) (fe_scan fe CFV (vertex_key H nil_uuid))); reflexivity.
    - do 2 eexists. split; [reflexivity|]. split; [reflexivity|].
      apply (K _ Edges dec_edge (elems (cf_of (r_db s) CFE)) (fe_scan fe CFE [])); reflexivity.
  Qed.

  (** A page of [k] vertices takes no more than [k] reads: what cannot be read
      behind them does no harm. *)
  Lemma take_decode {A} (f : kv -> outcome A) k i l : (k <= i)%nat -> (k <= length l)%nat ->
    firstn k (decode f (broken (Some i) l)) = firstn k (map f l).
  Proof.
    intros L X. unfold decode, broken. rewrite map_app, map_map. cbn. rewrite firstn_app, map_length, firstn_length.
    replace (k - Nat.min i (length l))%nat with 0%nat by lia. cbn [firstn]. rewrite app_nil_r, !firstn_map, firstn_firstn.
    now replace (Nat.min k i) with k by lia.
  Qed.
  Lemma any_type (l : iter vertex) : filter (t_matches vt None) l = l.
  Proof. induction l as [|x l IH]; [reflexivity|]. cbn [filter]. destruct x; cbn; now rewrite IH. Qed.
  Lemma collect_length {A} (l : iter A) : forall r, collect l = Ok r -> length r = length l.
  Proof.
    induction l as [|x l IH]; intros r; cbn [collect]; [intros E; now inversion E|].
    destruct x as [x|x|]; cbn [obind]; [|discriminate|discriminate]. destruct (collect l) as [r0|r0|]; cbn [obind]; [|discriminate|discriminate].
    intros E. inversion E. cbn [length]. now rewrite (IH r0 eq_refl).
  Qed.
  Theorem C56_rdb_page fe s k start vs i : db_get (ops (fe_env fe)) s (QRangeVertex k None (Some start)) = Ok [Vertices vs] -> lenN vs = k ->
    fe_scan fe CFV (vertex_key H start) = Some i -> (k <= N.of_nat i)%N ->
    db_get (fops fe) s (QRangeVertex k None (Some start)) = Ok [Vertices vs].
  Proof.
    intros E L Sc I.
    assert (forall l, omapo (@rev outv) (let? l := collect (takeN k (filter (t_matches vt None) l)) in Ok [Vertices l]) =
                      omapo (@rev outv) (let? l := collect (firstn (N.to_nat k) l) in Ok [Vertices l])) as T.
    { intros l. now rewrite any_type, takeN_firstn. }
    change (omapo (@rev outv) (let? l := collect (takeN k (filter (t_matches vt None) (vertices_from H (r_db s) start))) in Ok [Vertices l]) = Ok [Vertices vs]) in E.
    change (omapo (@rev outv) (let? l := collect (takeN k (filter (t_matches vt None) (f_vertices_from H fe (r_db s) start))) in Ok [Vertices l]) = Ok [Vertices vs]).
    rewrite T in *. unfold f_vertices_from, f_from. rewrite Sc. unfold vertices_from in E.
    rewrite take_decode; [exact E|lia|].
    destruct (collect (firstn (N.to_nat k) (map dec_vertex (from (vertex_key H start) (d_vertices (r_db s)))))) as [r|r|] eqn:C; cbn in E; try discriminate.
    inversion E; subst r. apply collect_length in C. rewrite firstn_length, map_length in C. unfold lenN in L. cbn [cf_of].
    rewrite <- L, Nat2N.id in C. rewrite <- L, Nat2N.id. rewrite C at 1. apply Nat.le_min_r.
  Qed.

  (** Opening an existing database: as without failures, or an error. *)
  Theorem C56_rdb_open fe d : f_open fe d = Err EDatastore \/ f_open fe d = rdb_open d.
  Proof. destruct (open_may fe d) as [X|(_ & X)]; auto. Qed.
End Faults.

(** ** Cases *)

(** The storage engine cannot read the vertex [u2], and iterators over the
    vertices break off after one item. *)
Definition bad_block : fenv := FEnv ok_env
  (fun c k => match c with CFV => eqb k (vertex_key hash0 u2) | _ => false end)
  (fun c k => match c with CFV => Some 1%nat | _ => None end).

Notation fops0 := (f_ops hash0 enc0 dec0 bad_block).
Definition h_fault : list op :=
  [OCreateVertex v1; OCreateVertex v2; OCreateVertex v3; OCreateEdge e12; OSetProperties (q_vertex u1) n_name j_bob].
Notation s_fault := (run0 (ok_calls h_fault)).

(** Some calls are answered, others report the error; nothing is half done. *)
Example C56_example :
  db_get fops0 s_fault (q_vertex u1) = Ok [Vertices [v1]] /\
  db_get fops0 s_fault (q_vertex u2) = Err EDatastore /\
  db_get fops0 s_fault QAllVertex = Err EDatastore /\
  db_get fops0 s_fault (QRangeVertex 1 None None) = Ok [Vertices [v1]] /\
  db_get fops0 s_fault (QRangeVertex 1 None (Some u1)) = Ok [Vertices [v1]] /\
  db_get fops0 s_fault (QRangeVertex 2 None (Some u1)) = Err EDatastore /\
  db_get fops0 s_fault (QCount QAllVertex) = Ok [Count 2] /\
  db_get fops0 s_fault QAllEdge = Ok [Edges [e12]] /\
  fst (exec fops0 s_fault (OCreateEdge e23)) = Err EDatastore /\
  fst (exec fops0 s_fault (ODelete QAllVertex)) = Err EDatastore /\
  fst (exec fops0 s_fault (ODelete (q_edge e12))) = Ok RUnit.
Proof. vm_compute. auto 20. Qed.

(** C56 is false for counting: the error is counted as a vertex, and the caller
    gets a wrong number instead of an error. *)
Theorem C56_rdb_count_refuted : exists h fe,
  good_history enc0 dec0 h /\
  db_get (f_ops hash0 enc0 dec0 fe) (run0 h) (QCount QAllVertex) = Ok [Count 2] /\
  db_get ops0 (run0 h) (QCount QAllVertex) = Ok [Count 3] /\
  db_get (f_ops hash0 enc0 dec0 fe) (run0 h) QAllVertex = Err EDatastore.
Proof.
  exists (ok_calls h_fault), bad_block. split; [good0|]. vm_compute. auto.
Qed.

(** C56 is false for [index_property]: after a failed call lookups are answered
    as if the property were indexed, without the elements that have it, and
    repeating the call succeeds without indexing anything. *)
Theorem C56_rdb_index_refuted : exists h n x fe,
  good_history enc0 dec0 h /\
  let s := run0 h in
  let s1 := snd (exec (f_ops hash0 enc0 dec0 fe) s (OIndexProperty n)) in
  let s2 := snd (exec ops0 s1 (OIndexProperty n)) in
  db_get ops0 s (q_vprop u1 n) = Ok [VertexProperties [VProps v1 [NProp n x]]] /\
  db_get ops0 s (QVertexWithPropertyPresence n) = Err NotIndexed /\
  fst (exec (f_ops hash0 enc0 dec0 fe) s (OIndexProperty n)) = Err EDatastore /\
  db_get ops0 s1 (QVertexWithPropertyPresence n) = Ok [Vertices []] /\
  fst (exec ops0 s1 (OIndexProperty n)) = Ok RUnit /\
  db_get ops0 s2 (QVertexWithPropertyPresence n) = Ok [Vertices []].
Proof.
  exists (ok_calls h_fault), n_name, j_bob, bad_block. split; [good0|]. vm_compute. auto 10.
Qed.
