(** * RocksDB: index lookups, reopening, crashes, bulk insertion; concrete
    histories and refutations. *)
From Verif Require Import Base OMap Json Types Util Db Mem Rdb Spec QueryFacts SpecFacts QueryTrust JsonFacts UtilFacts
  MemFacts MemRefine MemHist KeyFacts RdbSpec RdbRep RdbWrite RdbPut RdbRefine RdbGraph RdbHist RdbCrash Stages Effects
  Claims PropsMem Examples PropsMemIndex PropsRdb.

Set Implicit Arguments.

Lemma api_rtidy H enc dec h : good_history enc dec h -> steady h -> forallb (fun x => api_op (snd x)) h = true ->
  rtidy_history H enc dec h.
Proof.
  intros G S A. unfold rtidy_history. conj; auto. intros h1 x h2 ->. rewrite forallb_app in A. apply andb_true_iff in A as [_ A]. cbn in A.
  apply andb_true_iff in A as [A _]. destruct (snd x); cbn in *; auto; discriminate.
Qed.

(** The 64-bit hash of a value. *)
Definition json_hash (H : list byte -> N) (v : json) : N := (H (json_stream v) mod 2 ^ 64)%N.

Lemma be_bytes_eq k : forall a b, be_bytes k a = be_bytes k b <-> (a mod 256 ^ N.of_nat k = b mod 256 ^ N.of_nat k)%N.
Proof.
  induction k as [|k IH]; intros a b.
  - cbn. rewrite !N.mod_1_r. tauto.
  - cbn [be_bytes]. replace (256 ^ N.of_nat (S k))%N with (256 * 256 ^ N.of_nat k)%N
      by (rewrite Nat2N.inj_succ, N.pow_succ_r'; reflexivity).
    assert (256 ^ N.of_nat k <> 0)%N as Z by now apply N.pow_nonzero.
    rewrite !(N.mod_mul_r _ 256 (256 ^ N.of_nat k)) by (lia || assumption).
    assert (byte_of a = byte_of b <-> (a mod 256 = b mod 256)%N) as B.
    { split; [intros E; apply (f_equal bN) in E; now rewrite !bN_byte_of in E|].
      intros E. apply bN_inj. now rewrite !bN_byte_of. }
    split.
    + intros E. apply app_inj_tail in E as [E1 E2]. apply IH in E1. apply B in E2. congruence.
    + intros E. pose proof (N.mod_lt a 256 ltac:(discriminate)) as La. pose proof (N.mod_lt b 256 ltac:(discriminate)) as Lb.
      assert (a mod 256 = b mod 256 /\ (a / 256) mod 256 ^ N.of_nat k = (b / 256) mod 256 ^ N.of_nat k)%N as [E1 E2].
      { revert E La Lb. generalize (a mod 256)%N (b mod 256)%N ((a / 256) mod 256 ^ N.of_nat k)%N ((b / 256) mod 256 ^ N.of_nat k)%N.
        clear. intros. lia. }
      apply IH in E2. apply B in E1. congruence.
Qed.

Lemma hash8_iff H x y : hash8 H x = hash8 H y <-> json_hash H x = json_hash H y.
Proof.
  transitivity (hb H x = hb H y).
  - split; [intros E; now apply (f_equal h8b) in E|intros E; now apply h8b_inj].
  - unfold hb, json_hash. apply (be_bytes_eq 8).
Qed.

(** ** Histories that only write properties of existing elements, without
    contradictory duplicates in one bulk insertion, and in which no
    [index_property] call failed *)
Section Tidy.
  Variable H : list byte -> N.
  Variable enc : json -> bytes.
  Variable dec : bytes -> option json.
  Variable h : list (renv * op).
  Hypothesis Tidy : rtidy_history H enc dec h.
  Variable env : renv.
  Notation ops := (rdb_ops H enc dec env).
  Notation s := (rdb_run H enc dec h).
  Notation g := (rgof dec s).

  Lemma rtidy_good : good_history enc dec h.
  Proof. apply Tidy. Qed.

  Lemma rtidy_no_orphans : no_orphans g.
  Proof. destruct (run_rtidy Tidy) as (L & R & X & NO & _). now rewrite (rgof_rep s R). Qed.

  Theorem C08_rdb_query_indexed q :
    (exists ex v, db_get ops s q = Ok (ex ++ [v]) /\ evals slt (hm H) g q ex v) \/
    (exists e, db_get ops s q = Err e /\ fails slt (hm H) g q e).
  Proof.
    destruct (run_rtidy Tidy) as (L & R & X & NO & _). rewrite (rgof_rep s R).
    destruct (db_get_ok slt_order (rdb_reads_ok s R env) q) as [A|[A|(_ & B)]]; auto.
    - intros n _ Hi. eapply exact_rix; eauto.
    - now apply no_bad in B.
  Qed.

  (** Every call resolves as specified; its effect is the RocksDB one. *)
  Theorem C08_rdb_call o r s' : good_op enc dec o -> exec ops s o = (r, s') -> r <> Err EDatastore ->
    exists a, resolves slt (hm H) g o r a /\ rgof dec s' = r_apply g a.
  Proof.
    intros GO E N. destruct (rdb_tidy_step env o Tidy GO E) as [S|(_ & F & _)]; [exact S|contradiction].
  Qed.

  Lemma rdb_leaf_get q l (P : outv -> Prop) : inner_of q = None ->
    indexed_by (map snd h) l -> index_of q = Some l ->
    (forall ex v, evals slt (hm H) g q ex v -> ex = [] /\ P v) ->
    exists v, db_get ops s q = Ok [v] /\ P v.
  Proof.
    intros L I IO HP. apply (rdb_indexed H enc dec h l) in I.
    destruct (C08_rdb_query_indexed q) as [(ex & v & E & V)|(e & E & F)].
    - destruct (HP ex v V) as [-> Pv]. eauto.
    - exfalso. inversion F; subst; congruence.
  Qed.

  (** C15 *)
  Theorem C15_rdb_vertex_presence_partial n : indexed_by (map snd h) n ->
    exists l, db_get ops s (QVertexWithPropertyPresence n) = Ok [Vertices l] /\ NoDup l /\
      forall v, In v l <-> is_vertex g v /\ exists x, get (vid v, n) (gvp g) = Some x.
  Proof.
    intros I. destruct (@rdb_leaf_get (QVertexWithPropertyPresence n) n (fun v => exists l, v = Vertices l /\ NoDup l /\
      forall v, In v l <-> is_vertex g v /\ exists x, get (vid v, n) (gvp g) = Some x)) as (v & E & l & -> & Pl); auto.
    - intros ex v V. inversion V; subst. split; [reflexivity|]. eauto.
    - eauto.
  Qed.

  Theorem C15_rdb_edge_presence_partial n : indexed_by (map snd h) n ->
    exists l, db_get ops s (QEdgeWithPropertyPresence n) = Ok [Edges l] /\ NoDup l /\
      forall e, In e l <-> is_edge g e /\ exists x, get (e, n) (gep g) = Some x.
  Proof.
    intros I. destruct (@rdb_leaf_get (QEdgeWithPropertyPresence n) n (fun v => exists l, v = Edges l /\ NoDup l /\
      forall e, In e l <-> is_edge g e /\ exists x, get (e, n) (gep g) = Some x)) as (v & E & l & -> & Pl); auto.
    - intros ex v V. inversion V; subst. split; [reflexivity|]. eauto.
    - eauto.
  Qed.

  (** Value lookups compare 64-bit hashes. *)
  Theorem C15_rdb_vertex_value_hash_partial n x : indexed_by (map snd h) n ->
    exists l, db_get ops s (QVertexWithPropertyValue n x) = Ok [Vertices l] /\ NoDup l /\
      forall v, In v l <-> is_vertex g v /\ exists y, get (vid v, n) (gvp g) = Some y /\ json_hash H y = json_hash H x.
  Proof.
    intros I. destruct (@rdb_leaf_get (QVertexWithPropertyValue n x) n (fun v => exists l, v = Vertices l /\ NoDup l /\
      forall v, In v l <-> is_vertex g v /\ exists y, get (vid v, n) (gvp g) = Some y /\ json_hash H y = json_hash H x)) as (v & E & l & -> & Pl); auto.
    - intros ex v V. inversion V; subst. split; [reflexivity|]. eexists. split; [reflexivity|]. split; [assumption|].
      setoid_rewrite <- hash8_iff. assumption.
    - eauto.
  Qed.
  Theorem C15_rdb_edge_value_hash_partial n x : indexed_by (map snd h) n ->
    exists l, db_get ops s (QEdgeWithPropertyValue n x) = Ok [Edges l] /\ NoDup l /\
      forall e, In e l <-> is_edge g e /\ exists y, get (e, n) (gep g) = Some y /\ json_hash H y = json_hash H x.
  Proof.
    intros I. destruct (@rdb_leaf_get (QEdgeWithPropertyValue n x) n (fun v => exists l, v = Edges l /\ NoDup l /\
      forall e, In e l <-> is_edge g e /\ exists y, get (e, n) (gep g) = Some y /\ json_hash H y = json_hash H x)) as (v & E & l & -> & Pl); auto.
    - intros ex v V. inversion V; subst. split; [reflexivity|]. eexists. split; [reflexivity|]. split; [assumption|].
      setoid_rewrite <- hash8_iff. assumption.
    - eauto.
  Qed.

  (** ... so they are exact when no other stored value of the property has the
      hash of the value asked for. *)
  Theorem C15_rdb_vertex_value_partial n x : indexed_by (map snd h) n ->
    (forall id y, get (id, n) (gvp g) = Some y -> json_hash H y = json_hash H x -> y = x) ->
    exists l, db_get ops s (QVertexWithPropertyValue n x) = Ok [Vertices l] /\ NoDup l /\
      forall v, In v l <-> is_vertex g v /\ get (vid v, n) (gvp g) = Some x.
  Proof.
    intros I NC. destruct (@C15_rdb_vertex_value_hash_partial n x I) as (l & E & ND & Hl). exists l. conj; auto.
    intros v. rewrite Hl. split; intros [Hv Hx]; (split; [assumption|]); [|eauto].
    destruct Hx as (y & Hy & Hh). now rewrite (NC _ _ Hy Hh) in Hy.
  Qed.
  Theorem C15_rdb_edge_value_partial n x : indexed_by (map snd h) n ->
    (forall e y, get (e, n) (gep g) = Some y -> json_hash H y = json_hash H x -> y = x) ->
    exists l, db_get ops s (QEdgeWithPropertyValue n x) = Ok [Edges l] /\ NoDup l /\
      forall e, In e l <-> is_edge g e /\ get (e, n) (gep g) = Some x.
  Proof.
    intros I NC. destruct (@C15_rdb_edge_value_hash_partial n x I) as (l & E & ND & Hl). exists l. conj; auto.
    intros v. rewrite Hl. split; intros [Hv Hx]; (split; [assumption|]); [|eauto].
    destruct Hx as (y & Hy & Hh). now rewrite (NC _ _ Hy Hh) in Hy.
  Qed.

  (** C41: every edge any query returns is stored (in histories that never write
      properties of missing elements). *)
  Theorem C41_rdb_partial q outs v e :
    db_get ops s q = Ok outs -> In v outs -> In e (edges_in v) -> is_edge g e.
  Proof.
    intros E Hv He.
    destruct (run_rtidy Tidy) as (L & R & X & NO & _). pose proof (rgof_rep s R) as RG.
    pose proof (query_trust slt_order (rdb_reads_ok s R env)) as QT. rewrite <- RG in QT.
    assert (trust ops s g (fun _ => False) q True []) as T.
    { eapply (QT (fun q => match q with QEdgeWithPropertyPresence _ | QEdgeWithPropertyValue _ _ => True | _ => False end)).
      - intros n l _ E1.
        destruct (C08_rdb_query_indexed (QEdgeWithPropertyPresence n)) as [(ex & v' & Eq & V)|(e' & Eq & F)];
          unfold db_get in Eq; cbn [query_exec] in Eq; rewrite E1 in Eq; cbn [indexed_or_err obind] in Eq;
          rewrite collect_Ok in Eq; cbn in Eq; try discriminate.
        inversion V; subst. inversion Eq; subst. apply Forall_forall. intros e0 Hin.
        match goal with Hl : forall _, In _ _ <-> _ |- _ => now apply Hl in Hin end.
      - intros n x l _ E1.
        destruct (C08_rdb_query_indexed (QEdgeWithPropertyValue n x)) as [(ex & v' & Eq & V)|(e' & Eq & F)];
          unfold db_get in Eq; cbn [query_exec] in Eq; rewrite E1 in Eq; cbn [indexed_or_err obind] in Eq;
          rewrite collect_Ok in Eq; cbn in Eq; try discriminate.
        inversion V; subst. inversion Eq; subst. apply Forall_forall. intros e0 Hin.
        match goal with Hl : forall _, In _ _ <-> _ |- _ => now apply Hl in Hin end.
      - intros _. destruct (leaf q); exact I. }
    unfold trust in T. unfold db_get in E. destruct (query_exec ops s q []) as [out|e1|]; try discriminate.
    cbn in E. inversion E; subst. apply in_rev in Hv. destruct T as (w & rest & -> & Gw & Gr).
    assert (good g True v) as Gv. { destruct Hv as [<-|Hv]; [assumption|]. destruct (Gr v Hv) as [[]|]. assumption. }
    destruct v; cbn in He; try contradiction; cbn in Gv; specialize (Gv I); rewrite Forall_forall in Gv; auto.
    apply in_map_iff in He as (x & <- & Hx). auto.
  Qed.

  (** C22: every edge any query returns is stored, and its outbound vertex exists. *)
  Theorem C22_rdb_returned_edges q outs v e : no_bulk h ->
    db_get ops s q = Ok outs -> In v outs -> In e (edges_in v) ->
    is_edge g e /\ exists t, get (eout e) (gv g) = Some t.
  Proof.
    intros NB E Hv He. pose proof (C41_rdb_partial q v e E Hv He) as Hg. split; [assumption|].
    now apply C22_rdb_outbound; [apply rtidy_good|..].
  Qed.

  (** C06, for every query. *)
  Theorem C06_rdb_delete_edges_tidy_partial q es r s' : no_bulk h -> answer ops s q = Ok (Edges es) ->
    exec ops s (ODelete q) = (r, s') -> r <> Err EDatastore ->
    r = Ok RUnit /\ edges_deleted es g (rgof dec s').
  Proof.
    intros NB A E N. eapply C06_rdb_delete_edges_partial; eauto; [apply rtidy_good|].
    intros e He. unfold answer in A. destruct (db_get ops s q) as [outs|e1|] eqn:G; try discriminate.
    destruct (@C11_rdb_includes H enc dec h rtidy_good env q outs G) as (ex & w & -> & A' & _).
    rewrite rev_app_distr in A. cbn in A. inversion A; subst w.
    eapply (@C22_rdb_returned_edges q _ (Edges es) e NB G); [apply in_or_app; right; left; reflexivity|]. exact He.
  Qed.

  (** C05: the full cascade when no other vertex has an edge into the deleted ones. *)
  Theorem C05_rdb_closed_partial q vs r s' : answer ops s q = Ok (Vertices vs) ->
    (forall e, is_edge g e -> In (ein e) (map vid vs) -> In (eout e) (map vid vs)) ->
    exec ops s (ODelete q) = (r, s') -> r <> Err EDatastore ->
    r = Ok RUnit /\ vertices_deleted (map vid vs) g (rgof dec s').
  Proof.
    intros A Cl E N. destruct (@C05_rdb_delete_vertices_partial H enc dec h rtidy_good env q vs r s' A E N) as [-> C].
    split; [reflexivity|]. apply (deleted_out_closed C Cl). intros e n x Hx. exact (no_eorphan rtidy_no_orphans _ _ Hx).
  Qed.

  (** C39: indexing again changes nothing at all. *)
  Theorem C39_rdb_idempotent_partial n : indexed_by (map snd h) n -> exec ops s (OIndexProperty n) = (Ok RUnit, s).
  Proof.
    intros I. apply (rdb_indexed H enc dec h n) in I. unfold indexed in I. cbn in I. cbn. unfold rdb_index_property.
    now rewrite I.
  Qed.
End Tidy.

(** ** C23, C39: reopening and crashes *)
Section Durable.
  Variable H : list byte -> N.
  Variable enc : json -> bytes.
  Variable dec : bytes -> option json.
  Notation run := (rdb_run H enc dec).

  (** Reopening gives the same contents and indexed names, and every later
      call behaves the same. *)
  Theorem C39_rdb_reopen_partial h : good_history enc dec h -> steady h -> (N.of_nat (length h) < 2 ^ 64)%N ->
    exists s, rdb_open (r_db (run h)) = Ok s /\ r_db s = r_db (run h) /\ r_indexed s = r_indexed (run h) /\
      forall env o, fst (exec (rdb_ops H enc dec env) s o) = fst (exec (rdb_ops H enc dec env) (run h) o).
  Proof.
    intros G S L. destruct (@reopen H enc dec h G S L) as (s & E & Sm). exists s. pose proof Sm as [D I]. conj; auto.
    intros env o. now apply exec_same.
  Qed.

  (** After crashes at any points, the database is the one after the surviving
      calls: all calls but, for each crash, some of the last ones before it;
      never one made before a [sync] that returned [Ok]. *)
  Theorem C23_rdb_crash l :
    good_history enc dec (calls_of l) -> steady (calls_of l) -> (N.of_nat (length l) < 2 ^ 64)%N ->
    exists n k h, events H enc dec fresh_node l = Ok n /\ survive H enc dec l k h /\
      r_db (n_state n) = r_db (run h) /\ r_indexed (n_state n) = r_indexed (run h) /\
      forall env o, fst (exec (rdb_ops H enc dec env) (n_state n) o) = fst (exec (rdb_ops H enc dec env) (run h) o).
  Proof.
    intros G S L. destruct (@crash_recovery H enc dec l G S L) as (n & k & h & E & Su & Sm). exists n, k, h.
    pose proof Sm as [D I]. conj; auto. intros env o. now apply exec_same.
  Qed.

  (** In one crash: everything called before a successful [sync] is still there,
      and of the calls after it exactly the first few. *)
  Theorem C23_rdb_synced h1 env h2 k :
    good_history enc dec (h1 ++ (env, OSync) :: h2) -> steady (h1 ++ (env, OSync) :: h2) ->
    (N.of_nat (length h1 + length h2) + 2 < 2 ^ 64)%N ->
    fst (exec (rdb_ops H enc dec env) (run h1) OSync) = Ok RUnit ->
    exists n h2a h2b, h2 = h2a ++ h2b /\
      events H enc dec fresh_node (map (fun x => Call (fst x) (snd x)) (h1 ++ (env, OSync) :: h2) ++ [Crash k]) = Ok n /\
      r_db (n_state n) = r_db (run (h1 ++ (env, OSync) :: h2a)) /\
      r_indexed (n_state n) = r_indexed (run (h1 ++ (env, OSync) :: h2a)).
  Proof.
    intros G S L Sy. set (l := map (fun x => Call (fst x) (snd x)) (h1 ++ (env, OSync) :: h2) ++ [Crash k]).
    assert (calls_of l = h1 ++ (env, OSync) :: h2) as El.
    { subst l. unfold calls_of. rewrite flat_map_app. cbn [flat_map]. rewrite app_nil_r.
      generalize (h1 ++ (env, OSync) :: h2). intros h. induction h as [|[e o] h IH]; cbn; [reflexivity|]. now rewrite IH. }
    destruct (@C23_rdb_crash l) as (n & m & h & E & Su & D & I & _); try now rewrite El.
    { subst l. rewrite app_length, map_length, app_length. cbn. lia. }
    assert (exists h2a h2b, h2 = h2a ++ h2b /\ h = h1 ++ (env, OSync) :: h2a) as (h2a & h2b & E2 & ->).
    2:{ exists n, h2a, h2b. auto. }
    clear - Su Sy. subst l.
    assert (forall l n h, survive H enc dec l n h -> forall hh, l = map (fun x => Call (fst x) (snd x)) hh ->
              h = hh /\ (forall a e b, hh = a ++ (e, OSync) :: b ->
                           fst (exec (rdb_ops H enc dec e) (run a) OSync) = Ok RUnit -> length a < n)) as K.
    { intros l n' h' S'. induction S' as [|l n' h' e S' IH Ok1|l n' h' e o S' IH No|l n' ha hb k' S' IH Le]; intros hh Eh.
      - destruct hh; [|discriminate]. split; [reflexivity|]. intros a e b X. destruct a; discriminate.
      - destruct hh as [|[e1 o1] hh _] using rev_ind; [destruct l; discriminate|]. rewrite map_app in Eh. cbn in Eh.
        apply app_inj_tail in Eh as [-> X]. inversion X; subst. destruct (IH hh eq_refl) as [-> IH2]. split; [reflexivity|].
        intros a e b Ea _. apply (f_equal (@length _)) in Ea. rewrite !app_length in *. cbn in *. lia.
      - destruct hh as [|[e1 o1] hh _] using rev_ind; [destruct l; discriminate|]. rewrite map_app in Eh. cbn in Eh.
        apply app_inj_tail in Eh as [-> X]. inversion X; subst. destruct (IH hh eq_refl) as [-> IH2]. split; [reflexivity|].
        intros a e b Ea Ok1. destruct b as [|y b _] using rev_ind.
        + apply app_inj_tail in Ea as [-> X2]. inversion X2; subst. now destruct (No eq_refl).
        + rewrite app_comm_cons, app_assoc in Ea. apply app_inj_tail in Ea as [Ea _]. eapply IH2; eauto.
      - destruct hh as [|[e1 o1] hh _] using rev_ind; [destruct l; discriminate|]. rewrite map_app in Eh. cbn in Eh.
        apply app_inj_tail in Eh as [_ X]. discriminate. }
    inversion Su as [X|l n' h' e S' O X|l n' h' e o S' No X|l n' ha hb k' S' Le X].
    - destruct (map _ _); discriminate.
    - apply app_inj_tail in X as [_ X]. discriminate.
    - apply app_inj_tail in X as [_ X]. discriminate.
    - apply app_inj_tail in X as [X _]. subst. destruct (K _ _ _ S' _ eq_refl) as [Eh Sf].
      specialize (Sf h1 env h2 eq_refl Sy).
      assert (length h1 < length h) as Lt by lia.
      exists (skipn (S (length h1)) h), hb.
      assert (h = firstn (length h) (h1 ++ (env, OSync) :: h2)) as Eh2.
      { rewrite <- Eh, firstn_app, Nat.sub_diag, firstn_all, firstn_O. now rewrite app_nil_r. }
      assert (h = (h1 ++ [(env, OSync)]) ++ skipn (S (length h1)) h) as E3.
      { replace (h1 ++ [(env, OSync)]) with (firstn (S (length h1)) h); [now rewrite firstn_skipn|].
        rewrite Eh2, firstn_firstn, Nat.min_l by lia.
        replace (S (length h1)) with (length (h1 ++ [(env, OSync)])) by (rewrite app_length; cbn; lia).
        replace (h1 ++ (env, OSync) :: h2) with ((h1 ++ [(env, OSync)]) ++ h2) by now rewrite <- app_assoc.
        now rewrite firstn_app, Nat.sub_diag, firstn_all, firstn_O, app_nil_r. }
      rewrite <- app_assoc in E3. cbn in E3. split; [|exact E3].
      rewrite E3, <- app_assoc in Eh. apply app_inv_head in Eh. now inversion Eh.
  Qed.

  (** With no assumption on which calls fail: after any calls and crashes, one
      more crash always can be reopened and leaves the data after some of the
      calls, [l1]: all of them but some made after the last crash and the last
      [sync] that returned [Ok].  The indexed names are those of that moment,
      except names whose [index_property] call failed. *)
  Theorem C23_rdb_crash_any l k :
    good_history enc dec (calls_of l) -> (N.of_nat (length l) < 2 ^ 64)%N ->
    exists n2 l1 l2 n1, events H enc dec fresh_node (l ++ [Crash k]) = Ok n2 /\
      l = l1 ++ l2 /\ events H enc dec fresh_node l1 = Ok n1 /\
      r_db (n_state n2) = r_db (n_state n1) /\
      (forall m, mem m (r_indexed (n_state n2)) = true -> mem m (r_indexed (n_state n1)) = true) /\
      (forall m, mem m (r_indexed (n_state n1)) = true -> mem m (r_indexed (n_state n2)) = false ->
         exists env, In (Call env (OIndexProperty m)) l1 /\ wok env = false) /\
      (forall ev, In ev l2 -> exists env o, ev = Call env o /\ (o = OSync -> wok env = false)).
  Proof. apply crash_any. Qed.
End Durable.

(** ** C07, as seen through [get] *)
Section RdbReads.
  Variable H : list byte -> N.
  Variable enc : json -> bytes.
  Variable dec : bytes -> option json.
  Variable h : list (renv * op).
  Hypothesis Good : good_history enc dec h.
  Variable env : renv.
  Notation ops := (rdb_ops H enc dec env).
  Notation s := (rdb_run H enc dec h).

  Lemma rdb_shows_next o r s' env' : good_op enc dec o -> exec ops s o = (r, s') ->
    shows (rdb_ops H enc dec env') s' (rgof dec s').
  Proof.
    intros GO E. pose proof (@rdb_shows H enc dec (h ++ [(env, o)])) as Sh. rewrite rdb_run_snoc in Sh. cbn [fst snd] in Sh.
    rewrite E in Sh. apply Sh. apply Forall_app. split; [assumption|]. now repeat constructor.
  Qed.

  Theorem C07_rdb_set_vertices_reads q n x vs r s' env' : lossless enc dec x -> answer ops s q = Ok (Vertices vs) ->
    exec ops s (OSetProperties q n x) = (r, s') -> r <> Err EDatastore ->
    (forall v, In v vs -> db_get (rdb_ops H enc dec env') s' (q_vprop (vid v) n) = Ok [VertexProperties [VProps v [NProp n x]]]) /\
    (forall id n', ~ (In id (map vid vs) /\ n' = n) ->
       db_get (rdb_ops H enc dec env') s' (q_vprop id n') = db_get ops s (q_vprop id n')) /\
    (forall e n', db_get (rdb_ops H enc dec env') s' (q_eprop e n') = db_get ops s (q_eprop e n')).
  Proof.
    intros Lx A E N. destruct (@C07_rdb_set_vertices H enc dec h Good env q n x vs r s' Lx A E N) as [_ C].
    destruct (set_vprops_reads (@rdb_shows H enc dec h Good env) (@rdb_shows_next (OSetProperties q n x) r s' env' Lx E) C) as (C1 & C2 & C3).
    conj; [|exact C2|exact C3]. intros v Hv. apply C1; [now apply in_map|].
    destruct (run_rep H Good) as (L & R & _). pose proof (@rdb_query_trust H enc dec env s L q R) as T.
    rewrite <- (rgof_rep s R) in T. unfold trust in T.
    unfold answer, db_get in A. destruct (query_exec ops s q []) as [out|e|]; try discriminate.
    destruct T as (w & rest & -> & Gw & _). cbn in A. rewrite rev_app_distr in A. cbn in A. inversion A; subst.
    cbn in Gw. rewrite Forall_forall in Gw. auto.
  Qed.

  Theorem C07_rdb_set_edges_reads q n x es r s' env' : lossless enc dec x -> answer ops s q = Ok (Edges es) ->
    exec ops s (OSetProperties q n x) = (r, s') -> r <> Err EDatastore ->
    (forall e, In e es -> is_edge (rgof dec s) e ->
       db_get (rdb_ops H enc dec env') s' (q_eprop e n) = Ok [EdgeProperties [EProps e [NProp n x]]]) /\
    (forall e n', ~ (In e es /\ n' = n) ->
       db_get (rdb_ops H enc dec env') s' (q_eprop e n') = db_get ops s (q_eprop e n')) /\
    (forall id n', db_get (rdb_ops H enc dec env') s' (q_vprop id n') = db_get ops s (q_vprop id n')).
  Proof.
    intros Lx A E N. destruct (@C07_rdb_set_edges H enc dec h Good env q n x es r s' Lx A E N) as [_ C].
    apply (set_eprops_reads (@rdb_shows H enc dec h Good env) (@rdb_shows_next (OSetProperties q n x) r s' env' Lx E) C).
  Qed.

  Theorem C07_rdb_delete_vprops_reads q l r s' env' : answer ops s q = Ok (VertexProperties l) ->
    exec ops s (ODelete q) = (r, s') -> r <> Err EDatastore ->
    (forall id n, In (id, n) (vprop_keys l) -> db_get (rdb_ops H enc dec env') s' (q_vprop id n) = Ok [VertexProperties []]) /\
    (forall id n, ~ In (id, n) (vprop_keys l) ->
       db_get (rdb_ops H enc dec env') s' (q_vprop id n) = db_get ops s (q_vprop id n)) /\
    (forall e n, db_get (rdb_ops H enc dec env') s' (q_eprop e n) = db_get ops s (q_eprop e n)).
  Proof.
    intros A E N. destruct (@C07_rdb_delete_vprops H enc dec h Good env q l r s' A E N) as [_ C].
    apply (delete_vprops_reads (@rdb_shows H enc dec h Good env) (@rdb_shows_next (ODelete q) r s' env' Logic.I E) C).
  Qed.

  Theorem C07_rdb_delete_eprops_reads q l r s' env' : answer ops s q = Ok (EdgeProperties l) ->
    exec ops s (ODelete q) = (r, s') -> r <> Err EDatastore ->
    (forall e n, In (e, n) (eprop_keys l) -> db_get (rdb_ops H enc dec env') s' (q_eprop e n) = Ok [EdgeProperties []]) /\
    (forall e n, ~ In (e, n) (eprop_keys l) ->
       db_get (rdb_ops H enc dec env') s' (q_eprop e n) = db_get ops s (q_eprop e n)) /\
    (forall id n, db_get (rdb_ops H enc dec env') s' (q_vprop id n) = db_get ops s (q_vprop id n)).
  Proof.
    intros A E N. destruct (@C07_rdb_delete_eprops H enc dec h Good env q l r s' A E N) as [_ C].
    apply (delete_eprops_reads (@rdb_shows H enc dec h Good env) (@rdb_shows_next (ODelete q) r s' env' Logic.I E) C).
  Qed.
End RdbReads.

(** ** C25 *)
Section Bulk.
  Variable H : list byte -> N.
  Variable enc : json -> bytes.
  Variable dec : bytes -> option json.
  Notation run := (rdb_run H enc dec).

  Lemma item_run h env it : good_history enc dec h -> good_item enc dec it -> wok env = true ->
    good_history enc dec (h ++ [(env, item_op it)]) /\
    rgof dec (run (h ++ [(env, item_op it)])) = g_bulk_item (rgof dec (run h)) it.
  Proof.
    intros G GI W. assert (good_op enc dec (item_op it)) as GO by (destruct it; exact GI || exact I).
    split; [apply Forall_app; split; [assumption|repeat constructor; exact GO]|].
    rewrite rdb_run_snoc. cbn [fst snd]. destruct (exec (rdb_ops H enc dec env) (run h) (item_op it)) as [r s'] eqn:E.
    destruct (@rdb_effect H enc dec env h (item_op it) r s' G GO E) as [[_ D]|(F & _)]; [|congruence].
    cbn [snd]. rewrite D. destruct it; reflexivity.
  Qed.

  (** Bulk insertion has the effect of inserting item by item when every vertex
      is new (or has its old type) and every edge's endpoints exist by the
      time its turn comes. *)
  Theorem C25_rdb_bulk_partial h env items : good_history enc dec h -> Forall (good_item enc dec) items -> wok env = true ->
    agrees_items (rgof dec (run h)) items ->
    rgof dec (run (h ++ [(env, OBulkInsert items)])) = rgof dec (run (h ++ map (fun it => (env, item_op it)) items)).
  Proof.
    intros G GI W A. rewrite rdb_run_snoc. cbn [fst snd].
    destruct (exec (rdb_ops H enc dec env) (run h) (OBulkInsert items)) as [r s'] eqn:E.
    destruct (@rdb_effect H enc dec env h (OBulkInsert items) r s' G GI E) as [[_ D]|(F & _)]; [|congruence].
    cbn [snd]. rewrite D. cbn [request snd r_apply]. rewrite r_bulk_agrees by assumption. clear D E s' r A.
    revert h G. induction items as [|it items IH]; intros h G; cbn [map].
    - now rewrite app_nil_r.
    - inversion GI; subst. change (g_bulk_insert (rgof dec (run h)) (it :: items)) with (g_bulk_insert (g_bulk_item (rgof dec (run h)) it) items).
      destruct (@item_run h env it G) as [G' <-]; auto. rewrite IH by auto. now rewrite <- app_assoc.
  Qed.
End Bulk.

(** ** Concrete histories *)

(** A serialiser for the values used below, a hash, and two values with the
    same hash input: [[1], 2] and [[1, 2]]. *)
Definition j_a : json := exist _ (RArr [RArr [RPos 1]; RPos 2]) eq_refl.
Definition j_b : json := exist _ (RArr [RArr [RPos 1; RPos 2]]) eq_refl.
Definition enc0 (x : json) : bytes :=
  match proj1_sig x with
  | RBool true => [x01] | RStr _ => [x02] | RPos _ => [x03] | RArr [_; _] => [x04] | RArr [_] => [x05] | _ => [x00]
  end.
Definition dec0 (b : bytes) : option json :=
  match b with
  | [x01] => Some j_true | [x02] => Some j_bob | [x03] => Some j_3 | [x04] => Some j_a | [x05] => Some j_b | _ => None
  end.
Definition hash0 (l : list byte) : N := fold_left (fun a b => (a * 257 + Byte.to_N b + 1) mod 18446744073709551616)%N l 5%N.
Notation run0 := (rdb_run hash0 enc0 dec0).
Notation ops0 := (rdb_ops hash0 enc0 dec0 ok_env).

(** Calls whose writes succeed. *)
Definition ok_calls (l : list op) : list (renv * op) := map (fun o => (ok_env, o)) l.
Lemma ok_steady l : steady (ok_calls l).
Proof. apply Forall_forall. intros x Hx. apply in_map_iff in Hx as (o & <- & _). reflexivity. Qed.
Ltac good0 := repeat (apply Forall_cons; [repeat (apply Forall_cons; [reflexivity || exact I|]); first [exact (Forall_nil _)|reflexivity|exact I]|]); apply Forall_nil.

(** The hypotheses of this file are met by a history that uses the index,
    overwrites and deletes. *)
Example people_rdb :
  rtidy_history hash0 enc0 dec0 (ok_calls h_people_2) /\ no_bulk (ok_calls h_people_2) /\ indexed_by h_people_2 n_name /\
  db_get ops0 (run0 (ok_calls h_people_2)) (QVertexWithPropertyValue n_name j_3) = Ok [Vertices [v1]] /\
  db_get ops0 (run0 (ok_calls h_people_2)) (QVertexWithPropertyValue n_name j_bob) = Ok [Vertices []] /\
  db_get ops0 (run0 (ok_calls h_people_2)) (q_vertex u2) = Ok [Vertices []].
Proof.
  split; [apply api_rtidy; [good0|apply ok_steady|reflexivity]|].
  split; [repeat constructor; discriminate|]. split; [cbn; auto 10|]. vm_compute. auto.
Qed.

(** The hypotheses of the crash theorems are met by a session with a [sync],
    a crash that loses the call after it, and later calls; the first vertex
    survives and its property is still indexed. *)
Definition crash_events : list event :=
  [Call ok_env (OCreateVertex v1); Call ok_env (OIndexProperty n_name);
   Call ok_env (OSetProperties (q_vertex u1) n_name j_bob); Call ok_env OSync; Call ok_env (OCreateVertex v2); Crash 0;
   Call ok_env (OCreateVertex v2); Crash 7].
Definition crash_node (l : list event) : node :=
  match events hash0 enc0 dec0 fresh_node l with Ok n => n | _ => fresh_node end.
Example crash_events_ok :
  good_history enc0 dec0 (calls_of crash_events) /\ steady (calls_of crash_events) /\
  fst (exec ops0 (run0 (calls_of (firstn 3 crash_events))) OSync) = Ok RUnit /\
  db_get ops0 (n_state (crash_node (firstn 5 crash_events))) QAllVertex = Ok [Vertices [v1; v2]] /\
  db_get ops0 (n_state (crash_node (firstn 6 crash_events))) QAllVertex = Ok [Vertices [v1]] /\
  db_get ops0 (n_state (crash_node crash_events)) QAllVertex = Ok [Vertices [v1; v2]] /\
  db_get ops0 (n_state (crash_node crash_events)) (QVertexWithPropertyValue n_name j_bob) = Ok [Vertices [v1]].
Proof.
  split; [good0|]. split; [repeat constructor|]. split; [reflexivity|]. vm_compute. auto.
Qed.

(** The indexed names are not exactly those of the history when an
    [index_property] call failed: the name works until the crash. *)
Theorem C23_rdb_failed_index_refuted : exists l n,
  good_history enc0 dec0 (calls_of l) /\
  db_get ops0 (n_state (crash_node l)) (QVertexWithPropertyPresence n) = Ok [Vertices []] /\
  db_get ops0 (n_state (crash_node (l ++ [Crash 7]))) (QVertexWithPropertyPresence n) = Err NotIndexed.
Proof.
  exists [Call ok_env (OCreateVertex v1); Call fail_env (OIndexProperty n_name); Call ok_env OSync], n_name.
  split; [good0|]. vm_compute. auto.
Qed.

(** C05 is false: deleting a vertex leaves the edges into it. *)
Theorem C05_rdb_inbound_refuted : exists h e r,
  good_history enc0 dec0 h /\
  db_get ops0 (run0 h) (q_edge e) = Ok [Edges [e]] /\
  exec ops0 (run0 h) (ODelete (q_vertex (ein e))) = (r, run0 (h ++ [(ok_env, ODelete (q_vertex (ein e)))])) /\
  r = Ok RUnit /\
  db_get ops0 (run0 (h ++ [(ok_env, ODelete (q_vertex (ein e)))])) (q_vertex (ein e)) = Ok [Vertices []] /\
  db_get ops0 (run0 (h ++ [(ok_env, ODelete (q_vertex (ein e)))])) (q_edge e) = Ok [Edges [e]].
Proof.
  exists (ok_calls [OCreateVertex v1; OCreateVertex v2; OCreateEdge e12]), e12, (Ok RUnit).
  split; [good0|]. split; [vm_compute; auto|]. split; [rewrite rdb_run_snoc; apply injective_projections; [vm_compute|]; reflexivity|].
  split; [reflexivity|]. vm_compute. auto.
Qed.

(** C06 is false after bulk insertion of an edge without outbound vertex: it
    can never be deleted. *)
Theorem C06_rdb_dangling_refuted : exists h e,
  good_history enc0 dec0 h /\
  db_get ops0 (run0 h) (q_edge e) = Ok [Edges [e]] /\
  fst (exec ops0 (run0 h) (ODelete (q_edge e))) = Ok RUnit /\
  db_get ops0 (run0 (h ++ [(ok_env, ODelete (q_edge e))])) (q_edge e) = Ok [Edges [e]].
Proof.
  exists (ok_calls [OBulkInsert [BEdge e12]]), e12. split; [good0|]. vm_compute. auto.
Qed.

(** C15 is false in three ways.  Values with the same hash input are confused
    (whatever the hash function): *)
Theorem C15_rdb_hash_input_refuted H : exists h v n x y,
  rtidy_history H enc0 dec0 h /\ indexed_by (map snd h) n /\
  get (vid v, n) (gvp (rgof dec0 (rdb_run H enc0 dec0 h))) = Some y /\ json_eq y x = false /\
  exists l, db_get (rdb_ops H enc0 dec0 ok_env) (rdb_run H enc0 dec0 h) (QVertexWithPropertyValue n x) = Ok [Vertices l] /\ In v l.
Proof.
  set (h := ok_calls [OCreateVertex v1; OIndexProperty n_name; OSetProperties (q_vertex u1) n_name j_a]).
  assert (rtidy_history H enc0 dec0 h) as T by (apply api_rtidy; [good0|apply ok_steady|reflexivity]).
  assert (indexed_by (map snd h) n_name) as Ix by (cbn; auto).
  exists h, v1, n_name, j_b, j_a. split; [assumption|]. split; [assumption|].
  set (h1 := ok_calls [OCreateVertex v1; OIndexProperty n_name]).
  assert (good_history enc0 dec0 h1) as G1 by good0.
  destruct (exec (rdb_ops H enc0 dec0 ok_env) (rdb_run H enc0 dec0 h1) (OSetProperties (q_vertex u1) n_name j_a)) as [r s'] eqn:E.
  assert (rdb_run H enc0 dec0 h = s') as Es.
  { change h with (h1 ++ [(ok_env, OSetProperties (q_vertex u1) n_name j_a)]). rewrite rdb_run_snoc. cbn [fst snd]. now rewrite E. }
  assert (is_vertex (rgof dec0 (rdb_run H enc0 dec0 h1)) v1) as V1.
  { destruct (exec (rdb_ops H enc0 dec0 ok_env) (rdb_run H enc0 dec0 []) (OCreateVertex v1)) as [r1 s1] eqn:E1.
    assert (good_history enc0 dec0 []) as G0 by constructor.
    assert (rdb_run H enc0 dec0 h1 = snd (exec (rdb_ops H enc0 dec0 ok_env) s1 (OIndexProperty n_name))) as ->.
    { change h1 with (([] ++ [(ok_env, OCreateVertex v1)]) ++ [(ok_env, OIndexProperty n_name)]). rewrite !rdb_run_snoc.
      cbn [fst snd]. now rewrite E1. }
    assert (good_history enc0 dec0 [(ok_env, OCreateVertex v1)]) as G2 by good0.
    assert (rdb_run H enc0 dec0 [(ok_env, OCreateVertex v1)] = s1) as E2.
    { change [(ok_env, OCreateVertex v1)] with ([] ++ [(ok_env, OCreateVertex v1)]). rewrite rdb_run_snoc. cbn [fst snd]. now rewrite E1. }
    destruct (exec (rdb_ops H enc0 dec0 ok_env) s1 (OIndexProperty n_name)) as [r2 s2] eqn:E3. cbn [snd].
    rewrite <- E2 in E3. destruct (@rdb_effect H enc0 dec0 ok_env _ (OIndexProperty n_name) r2 s2 G2 I E3) as [[_ D]|(F & _)]; [|discriminate].
    rewrite D. cbn [request snd r_apply g_apply]. rewrite E2.
    destruct (@C02_rdb_create_vertex H enc0 dec0 [] G0 ok_env v1 r1 s1 E1) as [[_ C]|[(_ & (t & Ht) & _)|[-> _]]].
    - unfold is_vertex. cbn. rewrite (vc_vertices C). reflexivity.
    - cbn in Ht. rewrite get_empty in Ht. discriminate.
    - cbn in E1. unfold rdb_create_vertex in E1. cbn in E1. destruct (vertex_exists _ _ _); discriminate. }
  assert (answer (rdb_ops H enc0 dec0 ok_env) (rdb_run H enc0 dec0 h1) (q_vertex u1) = Ok (Vertices [v1])) as A.
  { unfold answer. rewrite (sh_vertex (@rdb_shows H enc0 dec0 h1 G1 ok_env)). unfold is_vertex in V1. change (vid v1) with u1 in V1. rewrite V1. reflexivity. }
  assert (r <> Err EDatastore) as N.
  { intros ->. destruct (@C20_rdb_errors H enc0 dec0 h1 G1 ok_env (OSetProperties (q_vertex u1) n_name j_a) EDatastore) as [F|[F|[F|[_ F]]]]; try discriminate.
}
  destruct (@C07_rdb_set_vertices H enc0 dec0 h1 G1 ok_env (q_vertex u1) n_name j_a [v1] r s' eq_refl A E N) as [_ C].
  assert (get (vid v1, n_name) (gvp (rgof dec0 s')) = Some j_a) as Gx by (apply (vps_set C); left; reflexivity).
  rewrite Es. split; [assumption|]. split; [reflexivity|].
  destruct (@C15_rdb_vertex_value_hash_partial H enc0 dec0 h T ok_env n_name j_b Ix) as (l & El & _ & Hl). rewrite Es in El, Hl.
  exists l. split; [assumption|]. apply Hl. split.
  - unfold is_vertex. rewrite (vps_vertices C). exact V1.
  - exists j_a. split; [assumption|]. assert (json_stream j_a = json_stream j_b) as Ej by (vm_compute; reflexivity).
    unfold json_hash. now rewrite Ej.
Qed.

(** two values for one property in one bulk insertion leave both indexed: *)
Theorem C15_rdb_bulk_duplicate_refuted : exists h v n x y,
  good_history enc0 dec0 h /\ indexed_by (map snd h) n /\
  db_get ops0 (run0 h) (q_vprop (vid v) n) = Ok [VertexProperties [VProps v [NProp n y]]] /\ json_eq y x = false /\
  db_get ops0 (run0 h) (QVertexWithPropertyValue n x) = Ok [Vertices [v]].
Proof.
  exists (ok_calls [OCreateVertex v1; OIndexProperty n_name; OBulkInsert [BVProp u1 n_name j_true; BVProp u1 n_name j_bob]]), v1, n_name, j_true, j_bob.
  split; [good0|]. split; [cbn; auto|]. vm_compute. auto.
Qed.

(** and a value the serialiser changes stays in the index for ever. *)
Definition dec_lossy (b : bytes) : option json := match b with [x04] => Some j_true | _ => dec0 b end.
Theorem C15_rdb_lossy_refuted : exists h v n x y,
  forallb (fun o => api_op (snd o)) h = true /\ indexed_by (map snd h) n /\
  let s := rdb_run hash0 enc0 dec_lossy h in
  db_get (rdb_ops hash0 enc0 dec_lossy ok_env) s (q_vprop (vid v) n) = Ok [VertexProperties [VProps v [NProp n y]]] /\
  json_eq y x = false /\
  db_get (rdb_ops hash0 enc0 dec_lossy ok_env) s (QVertexWithPropertyValue n x) = Ok [Vertices [v]].
Proof.
  exists (ok_calls [OCreateVertex v1; OIndexProperty n_name; OSetProperties (q_vertex u1) n_name j_a; OSetProperties (q_vertex u1) n_name j_bob]), v1, n_name, j_a, j_bob.
  split; [reflexivity|]. split; [cbn; auto|]. vm_compute. auto.
Qed.

(** C41: after bulk insertion of a property of a missing edge, edge lookups
    return that edge. *)
Theorem C41_rdb_bulk_refuted : exists h e n,
  good_history enc0 dec0 h /\
  db_get ops0 (run0 h) (QEdgeWithPropertyPresence n) = Ok [Edges [e]] /\
  db_get ops0 (run0 h) (q_edge e) = Ok [Edges []].
Proof.
  exists (ok_calls [OIndexProperty n_name; OBulkInsert [BEProp e12 n_name j_true]]), e12, n_name.
  split; [good0|]. vm_compute. auto.
Qed.

(** C25 is false: bulk insertion overwrites a vertex's type, and inserts edges
    without endpoints. *)
Theorem C25_rdb_overwrite_refuted : exists h it v w,
  good_history enc0 dec0 h /\ it = BVertex w /\ vid v = vid w /\
  db_get ops0 (run0 (h ++ [(ok_env, OBulkInsert [it])])) (q_vertex (vid v)) = Ok [Vertices [w]] /\
  db_get ops0 (run0 (h ++ [(ok_env, item_op it)])) (q_vertex (vid v)) = Ok [Vertices [v]] /\ v <> w.
Proof.
  exists (ok_calls [OCreateVertex v1]), (BVertex (Vertex u1 t_likes)), v1, (Vertex u1 t_likes).
  split; [good0|]. split; [reflexivity|]. split; [reflexivity|]. split; [vm_compute; reflexivity|].
  split; [vm_compute; reflexivity|]. intros E. apply (f_equal (fun v => ib (vt v))) in E. discriminate.
Qed.
Theorem C25_rdb_dangling_refuted : exists it e,
  it = BEdge e /\
  db_get ops0 (run0 [(ok_env, OBulkInsert [it])]) (q_edge e) = Ok [Edges [e]] /\
  db_get ops0 (run0 [(ok_env, item_op it)]) (q_edge e) = Ok [Edges []].
Proof. exists (BEdge e12), e12. split; [reflexivity|]. vm_compute. auto. Qed.

(** C26, C39 are false for a failed [index_property]: afterwards lookups no
    longer fail with [NotIndexed] but miss elements, retrying returns [Ok] and
    does not help, and so does indexing another property. *)
Theorem C39_rdb_retry_refuted : exists h v n x,
  good_history enc0 dec0 h /\
  db_get ops0 (run0 h) (q_vprop (vid v) n) = Ok [VertexProperties [VProps v [NProp n x]]] /\
  db_get ops0 (run0 h) (QVertexWithPropertyPresence n) = Err NotIndexed /\
  let h1 := h ++ [(fail_env, OIndexProperty n)] in
  fst (exec (rdb_ops hash0 enc0 dec0 fail_env) (run0 h) (OIndexProperty n)) = Err EDatastore /\
  db_get ops0 (run0 h1) (QVertexWithPropertyPresence n) = Ok [Vertices []] /\
  let h2 := h1 ++ [(ok_env, OIndexProperty n)] in
  fst (exec ops0 (run0 h1) (OIndexProperty n)) = Ok RUnit /\
  db_get ops0 (run0 h2) (QVertexWithPropertyPresence n) = Ok [Vertices []].
Proof.
  exists (ok_calls [OCreateVertex v1; OSetProperties (q_vertex u1) n_name j_bob]), v1, n_name, j_bob.
  split; [good0|]. vm_compute. auto 10.
Qed.

(** C20 is false for a value the deserialiser rejects: it is written, and then
    no query for it can be answered. *)
Definition dec_none (b : bytes) : option json := match b with [x04] => None | _ => dec0 b end.
Theorem C20_rdb_undecodable_refuted : exists h v n x e,
  let ops := rdb_ops hash0 enc0 dec_none ok_env in
  let s := rdb_run hash0 enc0 dec_none h in
  fst (exec ops s (OSetProperties (q_vertex (vid v)) n x)) = Ok RUnit /\
  db_get ops (snd (exec ops s (OSetProperties (q_vertex (vid v)) n x))) (q_vprop (vid v) n) = Err e /\
  e <> OperationOnQuery /\ e <> NotIndexed.
Proof.
  exists (ok_calls [OCreateVertex v1]), v1, n_name, j_a. eexists. vm_compute. split; [reflexivity|]. split; [reflexivity|].
  split; discriminate.
Qed.
