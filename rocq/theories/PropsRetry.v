(** * C54: repeating a call.

    [repeatable] (Retry.v) says for which calls a repetition is harmless;
    [again o r] is what the repetition returns.  [index_free]: the call's
    query, if any, consults no property index (with an index, see the
    statements about tidy histories). *)
From Verif Require Import Base OMap Json Types Util Db Mem Rdb Spec QueryFacts SpecFacts QueryTrust JsonFacts UtilFacts
  MemFacts MemRefine MemHist KeyFacts RdbSpec RdbRep RdbWrite RdbPut RdbRefine RdbGraph RdbHist RdbCrash Stages Effects
  Claims PropsMem PropsMemIndex PropsRdb PropsRdbIndex Examples Agree Retry.

Set Implicit Arguments.

Definition index_free (o : op) : Prop := forall q, op_query o = Some q -> index_names q = [].

Lemma free_ordered q : index_names q = [] -> ordered q.
Proof.
  unfold ordered. induction q; cbn [index_names leaf]; intros E; try discriminate; try reflexivity; auto.
Qed.
Lemma free_get o : index_free o -> forall q, o = OGet q -> ordered q.
Proof. intros F q ->. now apply free_ordered, F. Qed.

(** ** Memory *)

Lemma mem_plain dbg ord h m o r m' : mem_run dbg h = Some m -> index_free o ->
  exec (mem_ops dbg ord) m o = (r, m') -> r <> Panic ->
  exists a, resolves lt vm (gof m) o r a /\ gof m' = g_apply (gof m) a.
Proof.
  intros Run F E N. destruct (run_weak dbg h Run) as (_ & M & _).
  destruct (@mem_exec_spec dbg ord m o r m' M) with (2 := E) as [X|[(-> & _)|(-> & _)]]; try (now elim N).
  - intros q n Hq Hin. rewrite (F q Hq) in Hin. now elim Hin.
  - now apply spec_step_resolves.
Qed.

(** A call made twice in a row leaves what the first one left. *)
Theorem C54_mem_repeat dbg h m ord1 ord2 o r1 m1 r2 m2 : mem_run dbg h = Some m -> index_free o ->
  repeatable vertices_first (gof m) o ->
  exec (mem_ops dbg ord1) m o = (r1, m1) -> r1 <> Panic ->
  exec (mem_ops dbg ord2) m1 o = (r2, m2) -> r2 <> Panic ->
  gof m2 = gof m1 /\ r2 = again o r1.
Proof.
  intros Run F Rp E1 N1 E2 N2. destruct (@mem_plain _ _ _ _ _ _ _ Run F E1 N1) as (a & R & G1).
  assert (mem_run dbg (h ++ [(ord1, o)]) = Some m1) as Run1.
  { rewrite mem_run_snoc, Run. unfold mem_step. cbn [fst snd]. rewrite E1. now destruct r1; [..|elim N1]. }
  destruct (@mem_plain _ _ _ _ _ _ _ Run1 F E2 N2) as (a2 & R2 & G2). rewrite G1 in R2, G2.
  destruct (repeat_call lex_order g_sound Rp R R2) as [X Y]. rewrite G2, G1, X. split; [reflexivity|]. apply Y, free_get, F.
Qed.

(** Any number of times. *)
Theorem C54_mem_many dbg h m ord o r1 m1 ords m' : mem_run dbg h = Some m -> index_free o ->
  repeatable vertices_first (gof m) o ->
  exec (mem_ops dbg ord) m o = (r1, m1) -> r1 <> Panic ->
  mem_run dbg (h ++ (ord, o) :: map (fun w => (w, o)) ords) = Some m' -> gof m' = gof m1.
Proof.
  intros Run F Rp E1 N1. destruct (@mem_plain _ _ _ _ _ _ _ Run F E1 N1) as (a & R & G1).
  assert (mem_run dbg (h ++ [(ord, o)]) = Some m1) as Run1.
  { rewrite mem_run_snoc, Run. unfold mem_step. cbn [fst snd]. rewrite E1. now destruct r1; [..|elim N1]. }
  revert m'. induction ords as [|w ords IH] using rev_ind; intros m' Hm.
  - cbn [map] in Hm. congruence.
  - rewrite map_app, app_comm_cons, app_assoc in Hm. cbn [map] in Hm. rewrite mem_run_snoc in Hm.
    apply mem_step_Some in Hm as (m0 & r & E0 & E & N & _). cbn [fst snd] in E. pose proof (IH _ E0) as G0.
    destruct (@mem_plain _ _ _ _ _ _ _ E0 F E N) as (a2 & R2 & G2). rewrite G0, G1 in R2, G2.
    destruct (repeat_call lex_order g_sound Rp R R2) as [X _]. now rewrite G2, X.
Qed.

(** Debug builds after a tidy history: index lookups too. *)
Theorem C54_mem_debug_repeat_partial h m ord1 ord2 o r1 m1 r2 m2 : mem_run true h = Some m ->
  tidy_history true (h ++ [(ord1, o)]) -> repeatable vertices_first (gof m) o ->
  exec (mem_ops true ord1) m o = (r1, m1) -> r1 <> Panic ->
  exec (mem_ops true ord2) m1 o = (r2, m2) -> r2 <> Panic ->
  gof m2 = gof m1 /\ ((forall q, o = OGet q -> ordered q) -> r2 = again o r1).
Proof.
  intros Run Td Rp E1 N1 E2 N2.
  assert (forall h m ord r m', mem_run true h = Some m -> tidy_history true h -> exec (mem_ops true ord) m o = (r, m') -> r <> Panic ->
    exists a, resolves lt vm (gof m) o r a /\ gof m' = g_apply (gof m) a) as St.
  { intros h0 m0 ord r m' Run0 Td0 E N. destruct (run_tidy Td0 Run0) as (C & NO). destruct (run_weak true h0 Run0) as (K & M & EP & SO).
    destruct (@mem_exec_spec true ord m0 o r m' M) with (2 := E) as [X|[(-> & _)|(-> & _)]]; try (now elim N).
    - intros q n _ _ _. apply exact_of_inv; auto.
    - now apply spec_step_resolves. }
  destruct (St _ _ _ _ _ Run (tidy_prefix Td) E1 N1) as (a & R & G1).
  assert (mem_run true (h ++ [(ord1, o)]) = Some m1) as Run1.
  { rewrite mem_run_snoc, Run. unfold mem_step. cbn [fst snd]. rewrite E1. now destruct r1; [..|elim N1]. }
  destruct (St _ _ _ _ _ Run1 Td E2 N2) as (a2 & R2 & G2). rewrite G1 in R2, G2.
  destruct (repeat_call lex_order g_sound Rp R R2) as [X Y]. now rewrite G2, G1, X.
Qed.

(** ** RocksDB *)
Section Rdb.
  Variable H : list byte -> N.
  Variable enc : json -> bytes.
  Variable dec : bytes -> option json.
  Notation ops := (rdb_ops H enc dec).
  Notation run := (rdb_run H enc dec).

  Theorem C54_rdb_repeat h env1 env2 o r1 s1 r2 s2 : good_history enc dec h -> good_op enc dec o -> index_free o ->
    repeatable (fun _ => True) (rgof dec (run h)) o ->
    exec (ops env1) (run h) o = (r1, s1) -> r1 <> Err EDatastore ->
    exec (ops env2) s1 o = (r2, s2) -> r2 <> Err EDatastore ->
    rgof dec s2 = rgof dec s1 /\ r2 = again o r1.
  Proof.
    intros Gh Go F Rp E1 N1 E2 N2.
    destruct (@rdb_plain_step H enc dec h env1 o r1 s1 Gh Go F E1) as [(a & R & G1)|(_ & X & _)]; [|contradiction].
    assert (run (h ++ [(env1, o)]) = s1) as <- by (rewrite rdb_run_snoc; cbn [fst snd]; now rewrite E1).
    assert (good_history enc dec (h ++ [(env1, o)])) as Gh1.
    { apply Forall_app. split; [exact Gh|]. constructor; [exact Go|constructor]. }
    destruct (@rdb_plain_step H enc dec _ env2 o r2 s2 Gh1 Go F E2) as [(a2 & R2 & G2)|(_ & X & _)]; [|contradiction].
    rewrite G1 in R2, G2. destruct (repeat_call slt_order r_sound Rp R R2) as [X Y]. rewrite G2, G1, X. split; [reflexivity|].
    apply Y, free_get, F.
  Qed.

  (** Retrying until the call gets through: however many attempts fail, and
      however many succeed, the graph is that of one successful call.  (For
      [index_property] see C39: a failed attempt spoils the later ones.) *)
  Definition attempts (o : op) (envs : list renv) : list (renv * op) := map (fun env => (env, o)) envs.

  Lemma attempts_two h o : good_history enc dec h -> good_op enc dec o -> index_free o -> (forall n, o <> OIndexProperty n) ->
    repeatable (fun _ => True) (rgof dec (run h)) o -> forall envs,
    (rgof dec (run (h ++ attempts o envs)) = rgof dec (run h) /\ Forall (fun env => wok env = false) envs) \/
    rgof dec (run (h ++ attempts o envs)) = rgof dec (run (h ++ [(ok_env, o)])).
  Proof.
    intros Gh Go F NI Rp envs.
    assert (exists r a, resolves slt (hm H) (rgof dec (run h)) o r a /\
              rgof dec (run (h ++ [(ok_env, o)])) = r_apply (rgof dec (run h)) a) as (r & a & R & ->).
    { rewrite rdb_run_snoc. cbn [fst snd]. destruct (exec (ops ok_env) (run h) o) as [r s'] eqn:E.
      destruct (@rdb_plain_step H enc dec h ok_env o r s' Gh Go F E) as [(a & R & G1)|(X & _)]; [|discriminate X]. eauto. }
    induction envs as [|env envs IH] using rev_ind.
    - left. cbn [attempts map]. rewrite app_nil_r. split; [reflexivity|constructor].
    - assert (good_history enc dec (h ++ attempts o envs)) as Gh1.
      { apply Forall_app. split; [exact Gh|]. apply Forall_forall. intros x Hx. apply in_map_iff in Hx as (e & <- & _). exact Go. }
      unfold attempts in *. rewrite map_app, app_assoc. cbn [map]. rewrite rdb_run_snoc. cbn [fst snd].
      destruct (exec (ops env) (run (h ++ map (fun env => (env, o)) envs)) o) as [r2 s2] eqn:E.
      destruct (@rdb_plain_step H enc dec _ env o r2 s2 Gh1 Go F E) as [(a2 & R2 & G2)|(W & _ & D & I)]; cbn [snd].
      + right. rewrite G2. destruct IH as [[IH _]|IH]; rewrite IH in *.
        * assert (forall q, op_query o = Some q -> ordered q) as O by (intros q Hq; apply free_ordered, F, Hq).
          pose proof (resolves_det slt_order O R R2) as [_ Ea]. now rewrite Ea.
        * apply (repeat_call slt_order r_sound Rp R R2).
      + assert (rgof dec s2 = rgof dec (run (h ++ map (fun env => (env, o)) envs))) as ->.
        { unfold rgof. rewrite D. destruct I as [->|(n & X & _)]; [reflexivity|elim (NI _ X)]. }
        destruct IH as [[IH Fl]|IH]; [left|right; assumption]. split; [assumption|]. apply Forall_app. auto.
  Qed.

  Theorem C54_rdb_attempts h o envs : good_history enc dec h -> good_op enc dec o -> index_free o ->
    (forall n, o <> OIndexProperty n) -> repeatable (fun _ => True) (rgof dec (run h)) o ->
    (exists env, In env envs /\ wok env = true) ->
    rgof dec (run (h ++ attempts o envs)) = rgof dec (run (h ++ [(ok_env, o)])).
  Proof.
    intros Gh Go F NI Rp (env & Hin & W). destruct (attempts_two Gh Go F NI Rp envs) as [[_ Fl]|E]; [|assumption].
    rewrite Forall_forall in Fl. rewrite (Fl env Hin) in W. discriminate.
  Qed.

  Theorem C54_rdb_repeat_indexed_partial h env1 env2 o r1 s1 r2 s2 :
    rtidy_history H enc dec (h ++ [(env1, o)]) ->
    repeatable (fun _ => True) (rgof dec (run h)) o ->
    exec (ops env1) (run h) o = (r1, s1) -> r1 <> Err EDatastore ->
    exec (ops env2) s1 o = (r2, s2) -> r2 <> Err EDatastore ->
    rgof dec s2 = rgof dec s1 /\ ((forall q, o = OGet q -> ordered q) -> r2 = again o r1).
  Proof.
    intros Td Rp E1 N1 E2 N2. pose proof Td as (Gh1 & _). apply Forall_app in Gh1 as Go. destruct Go as [_ Go].
    apply Forall_inv in Go. cbn [snd] in Go.
    destruct (@rdb_tidy_step H enc dec h env1 o r1 s1 (@rtidy_prefix H enc dec h (env1, o) Td) Go E1) as [(a & R & G1)|(_ & X & _)]; [|contradiction].
    assert (run (h ++ [(env1, o)]) = s1) as <- by (rewrite rdb_run_snoc; cbn [fst snd]; now rewrite E1).
    destruct (@rdb_tidy_step H enc dec _ env2 o r2 s2 Td Go E2) as [(a2 & R2 & G2)|(_ & X & _)]; [|contradiction].
    rewrite G1 in R2, G2. destruct (repeat_call slt_order r_sound Rp R R2) as [X Y]. now rewrite G2, G1, X.
  Qed.
End Rdb.

(** Equal graphs answer queries alike, so the repetition cannot be seen. *)
Theorem C54_mem_unseen dbg h1 m1 h2 m2 ord1 ord2 q : mem_run dbg h1 = Some m1 -> mem_run dbg h2 = Some m2 -> gof m1 = gof m2 ->
  index_names q = [] ->
  db_get (mem_ops dbg ord1) m1 q <> Panic -> db_get (mem_ops dbg ord2) m2 q <> Panic ->
  db_get (mem_ops dbg ord1) m1 q = db_get (mem_ops dbg ord2) m2 q.
Proof.
  intros R1 R2 G F N1 N2. pose proof (free_ordered q F) as O.
  destruct (C08_mem_query dbg h1 R1 ord1 q F) as [(ex & v & -> & V)|[(e & -> & V)|(X & _)]]; [| |contradiction];
  destruct (C08_mem_query dbg h2 R2 ord2 q F) as [(ex2 & v2 & -> & V2)|[(e2 & -> & V2)|(X & _)]]; try contradiction; rewrite <- G in V2.
  - now destruct (evals_det lex_order O V V2) as [-> ->].
  - destruct (fails_evals lex_order O V2 V).
  - destruct (fails_evals lex_order O V V2).
  - now rewrite (fails_det lex_order O V V2).
Qed.
Theorem C54_rdb_unseen H enc dec h1 h2 env1 env2 q : good_history enc dec h1 -> good_history enc dec h2 ->
  rgof dec (rdb_run H enc dec h1) = rgof dec (rdb_run H enc dec h2) -> index_names q = [] ->
  db_get (rdb_ops H enc dec env1) (rdb_run H enc dec h1) q = db_get (rdb_ops H enc dec env2) (rdb_run H enc dec h2) q.
Proof.
  intros R1 R2 G F. pose proof (free_ordered q F) as O.
  destruct (@C08_rdb_query H enc dec h1 R1 env1 q F) as [(ex & v & -> & V)|(e & -> & V)];
  destruct (@C08_rdb_query H enc dec h2 R2 env2 q F) as [(ex2 & v2 & -> & V2)|(e2 & -> & V2)]; rewrite <- G in V2.
  - now destruct (evals_det slt_order O V V2) as [-> ->].
  - destruct (fails_evals slt_order O V2 V).
  - destruct (fails_evals slt_order O V V2).
  - now rewrite (fails_det slt_order O V V2).
Qed.

(** ** The conditions are needed *)

(** Memory: a bulk insert listing an edge before its vertices inserts the edge
    only when it is repeated. *)
Theorem C54_mem_bulk_refuted : exists items,
  (exists m, mem_run false (calls [OBulkInsert items]) = Some m /\
     db_get (mem_ops false id_order) m QAllEdge = Ok [Edges []]) /\
  (exists m, mem_run false (calls [OBulkInsert items; OBulkInsert items]) = Some m /\
     db_get (mem_ops false id_order) m QAllEdge = Ok [Edges [e12]]).
Proof.
  exists [BEdge e12; BVertex v1; BVertex v2]. split; apply run_with; vm_compute; reflexivity.
Qed.

(** Both: a delete through a query whose limit cuts deletes more each time. *)
Theorem C54_mem_limit_refuted : exists h q, index_names q = [] /\
  (exists m, mem_run false (calls (h ++ [ODelete q])) = Some m /\
     db_get (mem_ops false id_order) m QAllVertex = Ok [Vertices [v2]]) /\
  (exists m, mem_run false (calls (h ++ [ODelete q; ODelete q])) = Some m /\
     db_get (mem_ops false id_order) m QAllVertex = Ok [Vertices []]).
Proof.
  exists [OCreateVertex v1; OCreateVertex v2], (QRangeVertex 1 None None).
  split; [reflexivity|]. split; apply run_with; vm_compute; reflexivity.
Qed.
Theorem C54_rdb_limit_refuted : exists h q, index_names q = [] /\ good_history enc0 dec0 (ok_calls (h ++ [ODelete q; ODelete q])) /\
  db_get ops0 (run0 (ok_calls (h ++ [ODelete q]))) QAllVertex = Ok [Vertices [v2]] /\
  db_get ops0 (run0 (ok_calls (h ++ [ODelete q; ODelete q]))) QAllVertex = Ok [Vertices []].
Proof.
  exists [OCreateVertex v1; OCreateVertex v2], (QRangeVertex 1 None None).
  split; [reflexivity|]. split; [good0|]. vm_compute. auto.
Qed.

(** Both: setting a property on the neighbours of the vertices that have it
    spreads it one step further each time. *)
Definition q_spread : query :=
  QPipe (QPipe (QPipeWithPropertyPresence QAllVertex n_name true) Outbound 10 None) Inbound 10 None.
Definition h_spread : list op :=
  [OIndexProperty n_name; OCreateVertex v1; OCreateVertex v2; OCreateVertex v3; OCreateEdge e12; OCreateEdge e23;
   OSetProperties (QSpecificVertex [u1]) n_name j_bob].
Theorem C54_mem_spread_refuted :
  (exists m, mem_run false (calls (h_spread ++ [OSetProperties q_spread n_name j_bob])) = Some m /\
     db_get (mem_ops false id_order) m (QPipeWithPropertyPresence QAllVertex n_name true) = Ok [Vertices [v1; v2]]) /\
  (exists m, mem_run false (calls (h_spread ++ [OSetProperties q_spread n_name j_bob; OSetProperties q_spread n_name j_bob])) = Some m /\
     db_get (mem_ops false id_order) m (QPipeWithPropertyPresence QAllVertex n_name true) = Ok [Vertices [v1; v2; v3]]).
Proof. split; apply run_with; vm_compute; reflexivity. Qed.
Theorem C54_rdb_spread_refuted :
  good_history enc0 dec0 (ok_calls (h_spread ++ [OSetProperties q_spread n_name j_bob; OSetProperties q_spread n_name j_bob])) /\
  db_get ops0 (run0 (ok_calls (h_spread ++ [OSetProperties q_spread n_name j_bob]))) (QPipeWithPropertyPresence QAllVertex n_name true)
    = Ok [Vertices [v1; v2]] /\
  db_get ops0 (run0 (ok_calls (h_spread ++ [OSetProperties q_spread n_name j_bob; OSetProperties q_spread n_name j_bob])))
    (QPipeWithPropertyPresence QAllVertex n_name true) = Ok [Vertices [v1; v2; v3]].
Proof. split; [good0|]. vm_compute. auto. Qed.

(** ** Cases *)

(** A delete through two hops with generous limits, a bulk insert listing
    vertices first and an overwrite through a hop meet the conditions. *)
Example C54_case :
  (exists m, mem_run true (calls h_spread) = Some m /\
     repeatable vertices_first (gof m) (ODelete (QPipe (QPipe (QSpecificVertex [u1]) Outbound 1000 None) Inbound 1000 None)) /\
     repeatable vertices_first (gof m) (OSetProperties (QPipe (QSpecificVertex [u1]) Outbound 1 None) n_name j_3) /\
     repeatable vertices_first (gof m) (ODelete (QPipeProperty (QRangeVertex 2 None None) None)) /\
     repeatable vertices_first (gof m) (OBulkInsert [BVertex v1; BVertex v2; BVProp u1 n_name j_3; BEdge e12])) /\
  repeatable (fun _ => True) (rgof dec0 (run0 (ok_calls h_spread)))
    (ODelete (QPipeWithPropertyPresence (QPipe (QPipe (QSpecificVertex [u1]) Outbound 1000 None) Inbound 1000 None) n_name false)).
Proof.
  split.
  - apply run_with. assert (vertices_first [BVertex v1; BVertex v2; BVProp u1 n_name j_3; BEdge e12]) as VF.
    { intros a v b E e Hin. destruct a as [|x1 [|x2 [|x3 [|x4 [|x5 a]]]]]; inversion E; subst; cbn in Hin; 
        repeat (destruct Hin as [Hin|Hin]; try discriminate Hin); try contradiction. }
    cbn [repeatable selects]. conj; auto; try reflexivity; try (vm_compute; intuition discriminate).
  - vm_compute. intuition discriminate.
Qed.
