(** * C43: the shape of a query's result is known from the query.

    [result_kind] is the specification: what kind of result (vertices, edges,
    a count, vertex or edge properties) a query asks for, or [None] if some
    stage asks for something that does not exist (such as the properties of a
    count).  It is written from the documentation of the query types, not from
    [output_type]. *)
From Verif Require Import Base OMap Json Types Util Db Mem Rdb Spec QueryFacts SpecFacts QueryTrust JsonFacts UtilFacts
  MemFacts MemRefine MemHist RdbSpec RdbRefine RdbHist Stages Effects Claims PropsMem PropsRdb Examples PropsMemIndex.

Set Implicit Arguments.

Fixpoint result_kind (q : query) : option okind :=
  match q with
  | QAllVertex | QRangeVertex _ _ _ | QSpecificVertex _
  | QVertexWithPropertyPresence _ | QVertexWithPropertyValue _ _ => Some KVertices
  | QAllEdge | QSpecificEdge _ | QEdgeWithPropertyPresence _ | QEdgeWithPropertyValue _ _ => Some KEdges
  | QPipe i _ _ _ =>
    match result_kind i with
    | Some KVertices => Some KEdges
    | Some KEdges => Some KVertices
    | _ => None
    end
  | QPipeProperty i _ =>
    match result_kind i with
    | Some KVertices => Some KVProps
    | Some KEdges => Some KEProps
    | _ => None
    end
  | QPipeWithPropertyPresence i _ _ | QPipeWithPropertyValue i _ _ _ =>
    match result_kind i with
    | Some KVertices => Some KVertices
    | Some KEdges => Some KEdges
    | _ => None
    end
  | QInclude i => result_kind i
  | QCount i =>
    match result_kind i with
    | Some KCount | None => None
    | Some _ => Some KCount
    end
  end.

Section Kinds.
  Context {S : Type}.
  Variable ops : txn_ops S.
  Variable s : S.

  Lemma obind_ok {A B} (x : outcome A) (f : A -> outcome B) y : obind x f = Ok y -> exists a, x = Ok a /\ f a = Ok y.
  Proof. destruct x; cbn; intros E; try discriminate; eauto. Qed.
  Lemma omapo_ok {A B} (f : A -> B) (x : outcome A) y : omapo f x = Ok y -> exists a, x = Ok a /\ y = f a.
  Proof. destruct x; cbn; intros E; inversion E; eauto. Qed.

  Ltac ok_split :=
    repeat match goal with
    | H : obind _ _ = Ok _ |- _ => apply obind_ok in H as (? & ? & H)
    | H : omapo _ _ = Ok _ |- _ => apply omapo_ok in H as (? & ? & ->)
    | H : Ok _ = Ok _ |- _ => inversion H; subst; clear H
    | H : Err _ = Ok _ |- _ => discriminate H
    | H : Panic = Ok _ |- _ => discriminate H
    end.

  Lemma exported_length i p ex out : re_export i p (ex ++ out) =
    (match i with QInclude _ => [p] | _ => [] end ++ ex) ++ out.
  Proof. unfold re_export, is_include. destruct i; reflexivity. Qed.

  Lemma exec_kind q : forall out l, query_exec ops s q out = Ok l ->
    exists v ex, l = v :: ex ++ out /\ result_kind q = Some (kind_of_out v) /\ length ex = length (included q).
  Proof.
    induction q; intros out l E; cbn [query_exec] in E.
    1-9: ok_split; eexists; exists []; conj; reflexivity.
    1-4: apply obind_ok in E as (o1 & E1 & E); destruct (IHq _ _ E1) as (v & ex & -> & K & N);
         cbn [pop obind] in E; rewrite exported_length in E;
         destruct v; ok_split; eexists; eexists; (conj; [reflexivity|cbn [result_kind]; rewrite K; reflexivity|]);
         cbn [included]; rewrite !app_length, N; destruct q; cbn; lia.
    - apply obind_ok in E as (o1 & E1 & E). destruct (IHq _ _ E1) as (v & ex & -> & K & N).
      cbn [pop obind] in E. inversion E; subst. exists v, ex. conj; auto.
    - assert ((let? out1 := query_exec ops s q out in
              let? (piped, out2) := pop out1 in
              let? n := match piped with
                        | Vertices l => Ok (lenN l) | Edges l => Ok (lenN l)
                        | VertexProperties l => Ok (lenN l) | EdgeProperties l => Ok (lenN l)
                        | Count _ => Err OperationOnQuery end in
              Ok (Count n :: re_export q piped out2)) = Ok l \/
              (exists n, l = Count n :: out /\ included q = [] /\ (q = QAllVertex \/ q = QAllEdge))) as [E'|(n & -> & N & Hq)].
      { destruct q; try (left; exact E); right; apply obind_ok in E as (n & _ & E); inversion E; subst; exists n; auto. }
      + clear E. rename E' into E. apply obind_ok in E as (o1 & E1 & E). destruct (IHq _ _ E1) as (v & ex & -> & K & N).
        cbn [pop obind] in E. rewrite exported_length in E.
        destruct v; ok_split; eexists; eexists; (conj; [reflexivity|cbn [result_kind]; rewrite K; reflexivity|]);
          cbn [included]; rewrite !app_length, N; destruct q; cbn; lia.
      + exists (Count n), []. destruct Hq as [-> | ->]; conj; reflexivity.
  Qed.

  (** A query that is answered has a kind, the last element of the result is
      of that kind, and one more result is returned for each include that
      another stage consumes. *)
  Theorem C43_result_kind q outs : db_get ops s q = Ok outs ->
    exists exported v, outs = exported ++ [v] /\
      result_kind q = Some (kind_of_out v) /\ length exported = length (included q).
  Proof.
    unfold db_get. intros E. apply omapo_ok in E as (l & E & ->). destruct (exec_kind q _ E) as (v & ex & -> & K & N).
    rewrite app_nil_r. exists (rev ex), v. cbn [rev]. rewrite rev_length. auto.
  Qed.

  (** [output_len] is documented as the number of values a query produces.  It is
      an upper bound for queries without a count, and exact if moreover every
      include is consumed by a stage other than an include; it is only used as
      the capacity of a vector. *)
  Fixpoint counts (q : query) : bool :=
    match q with
    | QCount _ => true
    | QPipe i _ _ _ | QPipeProperty i _ | QPipeWithPropertyPresence i _ _ | QPipeWithPropertyValue i _ _ _ | QInclude i => counts i
    | _ => false
    end.
  Fixpoint consumed (q : query) : bool :=
    match q with
    | QInclude _ => false
    | QPipe (QInclude i) _ _ _ | QPipeProperty (QInclude i) _ | QPipeWithPropertyPresence (QInclude i) _ _
    | QPipeWithPropertyValue (QInclude i) _ _ _ => consumed i
    | QPipe i _ _ _ | QPipeProperty i _ | QPipeWithPropertyPresence i _ _ | QPipeWithPropertyValue i _ _ _ => consumed i
    | _ => true
    end.
  Lemma len_bound q : counts q = false -> (1 + length (included q) <= output_len q - match q with QInclude _ => 1 | _ => 0 end)%nat.
  Proof.
    induction q; intros Hc; try discriminate Hc; cbn [counts] in Hc; cbn [included output_len length]; try lia;
      specialize (IHq Hc); rewrite ?app_length; destruct q; cbn [length output_len included] in *; lia.
  Qed.
  Lemma len_exact q : counts q = false -> consumed q = true -> (1 + length (included q) = output_len q)%nat.
  Proof.
    assert (forall q, counts q = false ->
      (consumed q = true -> (1 + length (included q) = output_len q)%nat) /\
      (forall i, q = QInclude i -> consumed i = true -> (1 + length (included i) = output_len i)%nat)) as A.
    { clear q. induction q; intros Hc; try discriminate Hc; cbn [counts] in Hc; (split; [|intros i Ei; try discriminate Ei]).
      all: try (intros _; reflexivity).
      all: try (destruct (IHq Hc) as [X Y]; intros Hq; destruct q; try discriminate Hq; try (specialize (X Hq)); try (specialize (Y _ eq_refl Hq)); cbn [included output_len length app] in *; try (rewrite app_length; cbn [length]); lia).
      injection Ei as <-. intros Hq. exact (proj1 (IHq Hc) Hq). }
    intros Hc Hq. exact (proj1 (A q Hc) Hq).
  Qed.
  Theorem C43_output_len q outs : db_get ops s q = Ok outs -> counts q = false ->
    (length outs <= output_len q)%nat /\ (consumed q = true -> length outs = output_len q).
  Proof.
    intros E Hc. destruct (C43_result_kind _ E) as (ex & v & -> & _ & N). rewrite app_length, N. cbn [length]. split.
    - pose proof (len_bound q Hc). lia.
    - intros Hq. pose proof (len_exact q Hc Hq). lia.
  Qed.
  (** Not exact in general: the outermost include is counted twice, and the
      includes below a count are not counted. *)
  Theorem C43_output_len_refuted i outs : db_get ops s (QInclude i) = Ok outs -> counts i = false ->
    (length outs < output_len (QInclude i))%nat.
  Proof.
    intros E Hc. destruct (C43_result_kind _ E) as (ex & v & -> & _ & N). rewrite app_length, N. cbn [length].
    pose proof (len_bound (QInclude i) Hc) as B. cbn [output_len] in *. lia.
  Qed.
  Theorem C43_output_len_count i outs : db_get ops s (QCount (QInclude i)) = Ok outs -> (output_len (QCount (QInclude i)) < length outs)%nat.
  Proof.
    intros E. destruct (C43_result_kind _ E) as (ex & v & -> & _ & N). rewrite app_length, N. cbn. rewrite ?app_length. cbn. lia.
  Qed.

  (** The [extract_*] helpers of the library return the outermost result exactly
      when the query is of their kind. *)
  Theorem C43_extract q outs : db_get ops s q = Ok outs ->
    (forall l, extract_vertices outs = Some l <-> exists ex, outs = ex ++ [Vertices l]) /\
    (forall l, extract_edges outs = Some l <-> exists ex, outs = ex ++ [Edges l]) /\
    (forall n, extract_count outs = Some n <-> exists ex, outs = ex ++ [Count n]) /\
    (forall l, extract_vertex_properties outs = Some l <-> exists ex, outs = ex ++ [VertexProperties l]) /\
    (forall l, extract_edge_properties outs = Some l <-> exists ex, outs = ex ++ [EdgeProperties l]) /\
    (extract_vertices outs <> None <-> result_kind q = Some KVertices) /\
    (extract_edges outs <> None <-> result_kind q = Some KEdges) /\
    (extract_count outs <> None <-> result_kind q = Some KCount) /\
    (extract_vertex_properties outs <> None <-> result_kind q = Some KVProps) /\
    (extract_edge_properties outs <> None <-> result_kind q = Some KEProps).
  Proof.
    intros E. destruct (C43_result_kind q E) as (ex & v & -> & K & _). rewrite K.
    unfold extract_vertices, extract_edges, extract_count, extract_vertex_properties, extract_edge_properties.
    rewrite rev_unit. clear K E.
    assert (forall w, (exists ex', ex ++ [v] = ex' ++ [w]) <-> v = w) as A.
    { intros w. split; [intros (ex' & E); apply app_inj_tail in E; tauto|intros ->; eauto]. }
    repeat match goal with
    | |- (forall _, _ <-> exists _, _) /\ _ => split; [intros ?; rewrite A|]
    end; try (destruct v; split; intros X; inversion X; reflexivity).
    destruct v; cbn; repeat split; intros X; try reflexivity; try discriminate; try (now elim X).
  Qed.

  (** Updating calls: only vertices and edges can be given properties, and
      everything but a count can be deleted; otherwise nothing changes. *)
  Theorem C43_update_kinds q n x :
    (result_kind q <> Some KVertices -> result_kind q <> Some KEdges ->
       snd (db_set_properties ops s q n x) = s /\ fst (db_set_properties ops s q n x) <> Ok tt) /\
    (result_kind q = Some KCount \/ result_kind q = None ->
       snd (db_delete ops s q) = s /\ fst (db_delete ops s q) <> Ok tt).
  Proof.
    unfold db_set_properties, db_delete. pose proof (exec_kind q []) as EK.
    destruct (query_exec ops s q []) as [l|e|]; cbn [obind]; [|now cbn..].
    destruct (EK l eq_refl) as (v & ex & -> & K & _). rewrite K. cbn [pop obind].
    split.
    - intros N1 N2. destruct v; cbn in *; try (split; [reflexivity|discriminate]); congruence.
    - intros [N|N]; [|discriminate]. destruct v; try discriminate. now cbn.
  Qed.

  (** What the builders reject fails when it is evaluated: if the inner query
      is answered, the stage answers [OperationOnQuery]. *)
  Definition rejected (i q : query) : Prop :=
    forall outs, db_get ops s i = Ok outs -> db_get ops s q = Err OperationOnQuery.

  Lemma get_exec q outs : db_get ops s q = Ok outs -> exists v ex, query_exec ops s q [] = Ok (v :: ex) /\
    result_kind q = Some (kind_of_out v).
  Proof.
    unfold db_get. intros E. apply omapo_ok in E as (l & E & ->). destruct (exec_kind q _ E) as (v & ex & -> & K & N).
    rewrite app_nil_r in E. eauto.
  Qed.
End Kinds.

(** The kind [output_type] computes is not always the kind of the result (a
    pipe yields the kind of its input), but it is good enough for the builders. *)
Lemma kind_output q k : result_kind q = Some k -> exists k', output_type q = Some k' /\
  match k, k' with
  | (KVertices | KEdges), (KVertices | KEdges) => True
  | (KVProps | KEProps), (KVProps | KEProps) => True
  | KCount, KCount => True
  | _, _ => False
  end.
Proof.
  revert k. induction q; intros k; cbn [result_kind output_type]; intros E; try (inversion E; subst; eexists; split; [reflexivity|exact I]).
  1-5: destruct (result_kind q) as [k1|]; try discriminate; destruct (IHq _ eq_refl) as (k' & -> & A);
    destruct k1; try discriminate; inversion E; subst; destruct k'; try contradiction; eexists; split; try reflexivity; exact I.
  destruct (result_kind q) as [k1|]; try discriminate. eexists; split; [reflexivity|]. destruct k1; inversion E; subst; exact I.
Qed.

Lemma kind_elem q k : result_kind q = Some k -> elem_kind (output_type q) = elem_kind (Some k).
Proof. intros E. destruct (kind_output q E) as (k' & -> & A). destruct k, k'; try contradiction; reflexivity. Qed.
Lemma kind_countable q k : result_kind q = Some k -> countable_kind (output_type q) = countable_kind (Some k).
Proof. intros E. destruct (kind_output q E) as (k' & -> & A). destruct k, k'; try contradiction; reflexivity. Qed.

(** The queries the builders can produce are exactly those that ask for
    something that exists. *)
Theorem C43_builders_exact q : built q <-> result_kind q <> None.
Proof.
  split.
  - induction 1; cbn [result_kind] in *; try discriminate; auto;
      unfold pipe_new, pipe_property_new, pipe_presence_new, pipe_value_new, count_new in *;
      destruct (result_kind q) as [k|] eqn:K; try congruence;
      rewrite ?(kind_elem q K), ?(kind_countable q K) in *;
      destruct k; cbn in *; try discriminate;
      match goal with H : Some _ = Some _ |- _ => inversion H; subst end;
      cbn [result_kind]; rewrite K; discriminate.
  - induction q; cbn [result_kind]; intros N; try (constructor; fail).
    + destruct (result_kind q) as [k|] eqn:K; [|congruence].
      assert (built (QPipe q dir u32_max None)) as B.
      { apply (built_pipe dir (IHq ltac:(discriminate))). unfold pipe_new. rewrite (kind_elem q K).
        destruct k; cbn in *; try congruence; reflexivity. }
      destruct t as [t|]; [apply built_pipe_t with (t := None)|]; eapply built_pipe_limit; exact B.
    + destruct (result_kind q) as [k|] eqn:K; [|congruence].
      assert (built (QPipeProperty q None)) as B.
      { apply (@built_pipe_property q); [now apply IHq|]. unfold pipe_property_new. rewrite (kind_elem q K).
        destruct k; cbn in *; try congruence; reflexivity. }
      destruct name as [n|]; [eapply built_pipe_property_name; exact B|exact B].
    + destruct (result_kind q) as [k|] eqn:K; [|congruence].
      apply (@built_presence q name exists_); [now apply IHq|]. unfold pipe_presence_new. rewrite (kind_elem q K).
      destruct k; cbn in *; try congruence; reflexivity.
    + destruct (result_kind q) as [k|] eqn:K; [|congruence].
      apply (@built_value q name value equal); [now apply IHq|]. unfold pipe_value_new. rewrite (kind_elem q K).
      destruct k; cbn in *; try congruence; reflexivity.
    + apply built_include. auto.
    + destruct (result_kind q) as [k|] eqn:K; [|congruence].
      apply (@built_count q); [now apply IHq|]. unfold count_new. rewrite (kind_countable q K).
      destruct k; cbn in *; try congruence; reflexivity.
Qed.

Theorem C43_rejected_fail {S} (ops : txn_ops S) s i : built i ->
  (forall d, pipe_new i d = None -> forall l t, rejected ops s i (QPipe i d l t)) /\
  (pipe_property_new i = None -> forall n, rejected ops s i (QPipeProperty i n)) /\
  (forall n b, pipe_presence_new i n b = None -> rejected ops s i (QPipeWithPropertyPresence i n b)) /\
  (forall n x b, pipe_value_new i n x b = None -> rejected ops s i (QPipeWithPropertyValue i n x b)) /\
  (count_new i = None -> rejected ops s i (QCount i)).
Proof.
  intros B. unfold rejected, pipe_new, pipe_property_new, pipe_presence_new, pipe_value_new, count_new.
  apply C43_builders_exact in B. destruct (result_kind i) as [k|] eqn:K; [|congruence].
  rewrite (kind_elem i K), (kind_countable i K).
  conj; intros; match goal with H : (if _ then _ else _) = None |- _ => destruct k; cbn in H; try discriminate H; clear H end;
    match goal with H : db_get _ _ _ = Ok _ |- _ => destruct (@get_exec _ ops s i _ H) as (v & ex & E & Kv); clear H end;
    rewrite K in Kv; inversion Kv as [Kv']; destruct v; try discriminate Kv'; unfold db_get; cbn [query_exec]; rewrite ?E; try reflexivity.
  destruct i; cbn [query_exec] in *; try reflexivity; try discriminate K; rewrite E; reflexivity.
Qed.

(** ** Accepted queries can be answered

    A query can be answered by some database if and only if the builders
    accept it. *)
Definition index_them (q : query) : list op := map OIndexProperty (index_names q).

Lemma mem_index_run dbg ord ns : exists m, mem_run dbg (map (fun n => (ord, OIndexProperty n)) ns) = Some m /\ m_vertices m = empty.
Proof.
  induction ns as [|n ns IH] using rev_ind; [exists mem_empty; split; reflexivity|].
  destruct IH as (m & Run & E). rewrite map_app. cbn [map]. rewrite mem_run_snoc, Run. cbn. eexists. split; [reflexivity|]. exact E.
Qed.

Theorem C43_mem_answerable dbg ord q :
  built q <-> exists h m outs, mem_run dbg h = Some m /\ db_get (mem_ops dbg ord) m q = Ok outs.
Proof.
  split.
  - intros B. destruct (mem_index_run dbg ord (index_names q)) as (m & Run & E).
    exists (map (fun n => (ord, OIndexProperty n)) (index_names q)), m.
    destruct (C13_mem_built dbg _ Run ord B) as (NO & NP & _).
    destruct (C16_mem_not_indexed dbg _ Run ord q) as [NI _].
    assert (db_get (mem_ops dbg ord) m q <> Panic) as NP'.
    { intros P. destruct (NP P) as (_ & v & Hv & _). unfold is_vertex in Hv. cbn in Hv. rewrite E in Hv. discriminate. }
    assert (db_get (mem_ops dbg ord) m q <> Err NotIndexed) as NI'.
    { intros X. destruct (NI X) as (n & Hn & N). apply N. unfold indexed_by. rewrite map_map. cbn [snd].
      apply in_map_iff. eauto. }
    pose proof (well_kinded_answer lex_order (run_reads dbg _ Run ord) q (built_well_kinded B)) as W.
    destruct (get_cases lex_order (run_reads dbg _ Run ord) q) as [(v & ex & _ & G & A)|[(e & _ & G & A)|(_ & G & A)]].
    + eauto.
    + exfalso. rewrite A in W. destruct W as [-> _]. contradiction.
    + contradiction.
  - intros (h & m & outs & Run & E). apply C43_builders_exact.
    destruct (C43_result_kind _ _ q E) as (ex & v & _ & K & _). rewrite K. discriminate.
Qed.

Theorem C43_rdb_answerable H enc dec env q :
  built q <-> exists h outs, good_history enc dec h /\ db_get (rdb_ops H enc dec env) (rdb_run H enc dec h) q = Ok outs.
Proof.
  split.
  - intros B. set (h := map (fun n => (env, OIndexProperty n)) (index_names q)).
    assert (good_history enc dec h) as G.
    { unfold good_history, h. apply Forall_forall. intros x Hx. apply in_map_iff in Hx as (n & <- & _). exact I. }
    exists h. destruct (C13_rdb_built H G env B) as (NO & NP & _).
    destruct (C16_rdb_not_indexed H G env q) as [NI _].
    destruct (C20_rdb_reads H G env q) as [(outs & E)|[E|E]]; [eauto|contradiction|].
    exfalso. destruct (NI E) as (n & Hn & N). apply N. unfold indexed_by, h. rewrite map_map. cbn [snd]. apply in_map_iff. eauto.
  - intros (h & outs & _ & E). apply C43_builders_exact.
    destruct (C43_result_kind _ _ q E) as (ex & v & _ & K & _). rewrite K. discriminate.
Qed.

(** Concrete cases: a chain with an include in a small database; the kind
    alternates along pipes, while [output_type] (used only inside the builders)
    does not. *)
Example C43_example :
  let q := QPipe (QInclude (QPipe (QSpecificVertex [u1]) Outbound 10 None)) Inbound 10 None in
  built q /\ result_kind q = Some KVertices /\ output_type (QPipe QAllVertex Outbound 10 None) = Some KVertices /\
  result_kind (QPipe QAllVertex Outbound 10 None) = Some KEdges /\
  (exists m, mem_run true (calls [OCreateVertex v1; OCreateVertex v2; OCreateEdge e12]) = Some m /\
   db_get (mem_ops true id_order) m q = Ok [Edges [e12]; Vertices [v2]] /\
   extract_vertices [Edges [e12]; Vertices [v2]] = Some [v2] /\
   extract_edges [Edges [e12]; Vertices [v2]] = None).
Proof.
  intros q. split; [now apply C43_builders_exact|]. conj; try reflexivity.
  apply run_with. vm_compute. auto.
Qed.

Example C43_rejected_example :
  let i := QCount QAllVertex in
  built i /\ count_new i = None /\ pipe_property_new i = None /\
  exists m, mem_run true (calls [OCreateVertex v1]) = Some m /\
  db_get (mem_ops true id_order) m i = Ok [Count 1] /\
  db_get (mem_ops true id_order) m (QCount i) = Err OperationOnQuery.
Proof. intros i. split; [now apply C43_builders_exact|]. conj; try reflexivity. apply run_with. vm_compute. auto. Qed.

(** [output_len] on queries with a result: exact, too large, too small. *)
Example C43_output_len_case :
  let out q := match db_get (mem_ops true id_order) mem_empty q with Ok l => Some (length l) | _ => None end in
  let hops := QPipe (QInclude (QPipe (QInclude QAllVertex) Outbound u32_max None)) Inbound u32_max None in
  out hops = Some 3 /\ output_len hops = 3 /\ counts hops = false /\ consumed hops = true /\
  out (QInclude hops) = Some 3 /\ output_len (QInclude hops) = 4 /\
  out (QCount (QInclude hops)) = Some 4 /\ output_len (QCount (QInclude hops)) = 1.
Proof. cbv zeta. conj; reflexivity. Qed.
