(** * Moving between vertices and edges: consequences for every backend whose
    primitive reads agree with some graph. *)
From Verif Require Import Base OMap Json Types Util Db Spec QueryFacts SpecFacts QueryTrust UtilFacts MemFacts Stages Claims.
From Coq Require Import Permutation.

Set Implicit Arguments.

(** ** Specification vocabulary *)

(** The database reports this vertex, this edge. *)
Definition has_vertex {S} (ops : txn_ops S) (s : S) (v : vertex) : Prop :=
  db_get ops s (QSpecificVertex [vid v]) = Ok [Vertices [v]].
Definition has_edge {S} (ops : txn_ops S) (s : S) (e : edge) : Prop :=
  db_get ops s (QSpecificEdge [e]) = Ok [Edges [e]].

(** [id.outbound()] / [id.inbound()], with a type filter and a limit. *)
Definition q_edges_of (id : uuid) (d : direction) (limit : N) (t : option ident) : query :=
  QPipe (QSpecificVertex [id]) d limit t.

Section Nav.
  Context {S : Type}.
  Variable ops : txn_ops S.
  Variable s : S.
  Variable g : graph.
  Variable tlt : ident -> ident -> Prop.
  Variable vmatch : json -> json -> Prop.
  Variable ixok : ident -> Prop.
  Variable bad : uuid -> Prop.
  Hypothesis T : type_order tlt.
  Hypothesis RO : reads_ok ops s g tlt vmatch ixok bad.

  Lemma has_vertex_iff v : has_vertex ops s v <-> is_vertex g v.
  Proof.
    unfold has_vertex. fold (q_vertex (vid v)). rewrite (sh_vertex (reads_show RO)). unfold is_vertex. destruct (get (vid v) (gv g)) as [t|]; split; intros E; try discriminate.
    - inversion E. destruct v; cbn in *. congruence.
    - inversion E. destruct v; cbn in *. congruence.
  Qed.
  Lemma has_edge_iff e : has_edge ops s e <-> is_edge g e.
  Proof.
    unfold has_edge. fold (q_edge e). rewrite (sh_edge (reads_show RO)). unfold is_edge. destruct (mem e (ge g)); split; auto; discriminate.
  Qed.

  Theorem nav_all_vertices : exists l, db_get ops s QAllVertex = Ok [Vertices l] /\ NoDup l /\ forall v, In v l <-> has_vertex ops s v.
  Proof.
    destruct (ro_all_vertices RO) as (l & Y & Hs & Hi). unfold yields in Y. exists l. unfold db_get. cbn [query_exec].
    rewrite Y. cbn [obind]. rewrite collect_Ok. conj; [reflexivity| |].
    - exact (sorted_NoDup vlt_irrefl Hs).
    - intros v. now rewrite Hi, has_vertex_iff.
  Qed.

  Theorem nav_all_edges : exists l, db_get ops s QAllEdge = Ok [Edges l] /\ NoDup l /\ forall e, In e l <-> has_edge ops s e.
  Proof.
    destruct (ro_all_edges RO) as (l & Y & Hs & Hi). unfold yields in Y. exists l. unfold db_get. cbn [query_exec].
    rewrite Y. cbn [obind]. rewrite collect_Ok. conj; [reflexivity| |].
    - exact (sorted_NoDup (elt_irrefl T) Hs).
    - intros e. now rewrite Hi, has_edge_iff.
  Qed.

  Lemma dir_NoDup d t v l : edges_at tlt g d t v l -> NoDup l.
  Proof.
    intros [Hs _]. apply (@sorted_NoDup _ (dir_lt tlt d)); [|exact Hs]. intros x. destruct d; cbn; apply (elt_irrefl T).
  Qed.

  Lemma pipe_vertices_get q d limit t vs : query_exec ops s q [] = Ok [Vertices vs] -> is_include q = false ->
    exists ls, Forall2 (edges_at tlt g d t) vs ls /\ db_get ops s (QPipe q d limit t) = Ok [Edges (limited limit (concat ls))].
  Proof.
    intros E I. destruct (@pipe_vertices_ok _ ops s g tlt vmatch ixok bad T RO d limit t vs []) as (ls & F & P); [unfold lenN; cbn; lia|].
    exists ls. split; [exact F|]. unfold db_get. cbn [query_exec]. rewrite E. cbn [obind pop]. rewrite P.
    unfold re_export. rewrite I. cbn [omapo obind lenN length N.of_nat app]. rewrite N.sub_0_r. reflexivity.
  Qed.

  Lemma pipe_edges_get q d limit t es vs : query_exec ops s q [] = Ok [Edges es] -> is_include q = false ->
    pipe_edges ops s d limit t es = Ok vs -> db_get ops s (QPipe q d limit t) = Ok [Vertices vs].
  Proof.
    intros E I P. unfold db_get. cbn [query_exec]. rewrite E. cbn [obind pop]. rewrite P. unfold re_export. now rewrite I.
  Qed.

  (** The edges of a vertex, from either end. *)
  Theorem nav_edges_of id d t limit : exists l,
    db_get ops s (q_edges_of id d limit t) = Ok [Edges (limited limit l)] /\ NoDup l /\
    forall e, In e l <-> has_edge ops s e /\ endpoint d e = id /\ type_ok t (et e) /\
                         exists v, has_vertex ops s v /\ vid v = id.
  Proof.
    assert (query_exec ops s (QSpecificVertex [id]) [] = Ok [Vertices (found g id)]) as E.
    { cbn [query_exec]. rewrite (ro_specific_vertices RO). cbn [obind flat_map]. rewrite collect_Ok, app_nil_r. reflexivity. }
    destruct (pipe_vertices_get _ d limit t E eq_refl) as (ls & F & P). exists (concat ls). split; [exact P|].
    unfold found in F. destruct (get id (gv g)) as [ty|] eqn:G; inversion F; subst.
    - inversion H3; subst. cbn [concat]. rewrite app_nil_r. split; [eapply dir_NoDup; eauto|].
      intros e. rewrite (proj2 H1 e), has_edge_iff. cbn [vid]. split; [|tauto].
      intros (A & B & C). conj; auto. exists (Vertex id ty). split; [|reflexivity]. apply has_vertex_iff. exact G.
    - cbn [concat]. split; [constructor|]. intros e. split; [contradiction|]. intros (_ & _ & _ & v & Hv & <-).
      apply has_vertex_iff in Hv. unfold is_vertex in Hv. congruence.
  Qed.

  (** The endpoints of an edge. *)
  Theorem nav_ends e d limit v : (0 < limit)%N ->
    (db_get ops s (QPipe (QSpecificEdge [e]) d limit None) = Ok [Vertices [v]] <->
     has_edge ops s e /\ has_vertex ops s v /\ vid v = endpoint d e).
  Proof.
    intros L. rewrite has_edge_iff, has_vertex_iff.
    assert (query_exec ops s (QSpecificEdge [e]) [] = Ok [Edges (if mem e (ge g) then [e] else [])]) as E.
    { pose proof (sh_edge (reads_show RO) e) as X. unfold db_get, q_edge in X. cbn [query_exec] in *.
      destruct (ro_specific_edges RO [e]) as (l & Y & K). unfold yields in Y. rewrite Y in *. cbn [obind] in *.
      rewrite collect_Ok in *. cbn [obind omapo rev app] in *. congruence. }
    destruct (pipe_edges_ok RO d limit None (if mem e (ge g) then [e] else [])) as (l & K & P).
    assert (forall A (l : list A), keeps (fun _ => True) l l) as KA.
    { intros A l0. induction l0; [constructor|now apply keeps_yes]. }
    assert (l = flat_map (found g) (map (endpoint d) (if mem e (ge g) then [e] else []))) as ->.
    { eapply keeps_det; [exact K|]. apply KA. }
    rewrite (pipe_edges_get (QSpecificEdge [e]) d limit None E eq_refl P).
    unfold is_edge. destruct (mem e (ge g)) eqn:M; cbn [map flat_map rev app].
    - rewrite app_nil_r. unfold found. unfold is_vertex. destruct (get (endpoint d e) (gv g)) as [ty|] eqn:G.
      + unfold limited. destruct (N.to_nat limit) as [|k] eqn:Ek; [lia|]. cbn [firstn]. rewrite firstn_nil. split.
        * intros X. inversion X; subst. cbn. auto.
        * intros (_ & Hv & Hi). destruct v as [i ty']; cbn in *. congruence.
      + unfold limited. rewrite firstn_nil. split; [discriminate|]. intros (_ & Hv & Hi). congruence.
    - unfold limited. rewrite firstn_nil. split; [discriminate|]. intros [? _]. discriminate.
  Qed.

  Lemma concat_in d t vs ls e : Forall2 (edges_at tlt g d t) vs ls ->
    (In e (concat ls) <-> is_edge g e /\ type_ok t (et e) /\ exists v, In v vs /\ vid v = endpoint d e).
  Proof.
    induction 1 as [|v l vs ls H F IH]; cbn [concat]; [split; [contradiction|intros (_ & _ & v & [] & _)]|].
    rewrite in_app_iff, IH, (proj2 H e). split.
    - intros [(A & B & C)|(A & B & w & Hw & E)]; conj; auto; [exists v|exists w]; split; auto; now (left + right).
    - intros (A & B & w & [<-|Hw] & E); [left|right]; eauto.
  Qed.

  (** Following every vertex outwards enumerates all edges, in the same order. *)
  Theorem nav_all_outbound t limit l :
    (forall e, has_edge ops s e -> exists v, has_vertex ops s v /\ vid v = eout e) ->
    db_get ops s QAllEdge = Ok [Edges l] ->
    db_get ops s (QPipe QAllVertex Outbound limit t) = Ok [Edges (limited limit (filter (fun e => type_okb t (et e)) l))].
  Proof.
    intros Ends El. destruct (ro_all_vertices RO) as (vs & Y & Hs & Hi). unfold yields in Y.
    destruct (ro_all_edges RO) as (l' & Y' & Hs' & Hi'). unfold yields in Y'.
    assert (l' = l) as ->.
    { unfold db_get in El. cbn [query_exec] in El. rewrite Y' in El. cbn [obind] in El. rewrite collect_Ok in El. cbn in El. congruence. }
    assert (query_exec ops s QAllVertex [] = Ok [Vertices vs]) as E.
    { cbn [query_exec]. rewrite Y. cbn [obind]. now rewrite collect_Ok. }
    destruct (pipe_vertices_get _ Outbound limit t E eq_refl) as (ls & F & ->). do 4 f_equal.
    apply (@sorted_ext _ (elt tlt) (elt_irrefl T) (elt_asym T)).
    - clear E Y Hi. induction F as [|v l0 vs ls H F IH]; cbn [concat]; [constructor|].
      inversion Hs; subst. specialize (IH H2).
      assert (forall a b, In a l0 -> In b (concat ls) -> elt tlt a b) as Cross.
      { intros a b Ha Hb. apply (proj2 H) in Ha as (_ & Ea & _). apply (concat_in _ F) in Hb as (_ & _ & w & Hw & Eb).
        cbn [endpoint] in *. left. rewrite Ea, <- Eb. rewrite Forall_forall in H3. exact (H3 w Hw). }
      destruct H as [H _]. cbn [dir_lt] in H. clear - H IH Cross. induction H as [|a l0 Ha IHa Fa]; [exact IH|].
      cbn [app]. constructor.
      + apply IHa. intros x y Hx Hy. apply Cross; [now right|assumption].
      + rewrite Forall_forall in *. intros x Hx. apply in_app_iff in Hx as [Hx|Hx]; [exact (Fa x Hx)|]. apply Cross; [now left|assumption].
    - apply sorted_filter. exact Hs'.
    - intros e. rewrite (concat_in _ F), filter_In, type_okb_ok, Hi'. split.
      + intros (A & B & _). auto.
      + intros (A & B). conj; auto. destruct (Ends e) as (v & Hv & Ev); [now apply has_edge_iff|].
        exists v. split; [|exact Ev]. apply Hi. now apply has_vertex_iff.
  Qed.

  (** Following every vertex backwards enumerates all edges once. *)
  Theorem nav_all_inbound t limit l :
    (forall e, has_edge ops s e -> exists v, has_vertex ops s v /\ vid v = ein e) ->
    db_get ops s QAllEdge = Ok [Edges l] ->
    exists l', db_get ops s (QPipe QAllVertex Inbound limit t) = Ok [Edges (limited limit l')] /\
      Permutation l' (filter (fun e => type_okb t (et e)) l).
  Proof.
    intros Ends El. destruct (ro_all_vertices RO) as (vs & Y & Hs & Hi). unfold yields in Y.
    destruct nav_all_edges as (l0 & E0 & ND & In0). assert (l0 = l) as -> by congruence.
    assert (query_exec ops s QAllVertex [] = Ok [Vertices vs]) as E.
    { cbn [query_exec]. rewrite Y. cbn [obind]. now rewrite collect_Ok. }
    destruct (pipe_vertices_get _ Inbound limit t E eq_refl) as (ls & F & ->). exists (concat ls). split; [reflexivity|].
    apply NoDup_Permutation.
    - clear E Y Hi. induction F as [|v l1 vs ls H F IH]; cbn [concat]; [constructor|].
      inversion Hs; subst. specialize (IH H2).
      assert (forall a, In a l1 -> ~ In a (concat ls)) as Cross.
      { intros a Ha Hb. apply (proj2 H) in Ha as (_ & Ea & _). apply (concat_in _ F) in Hb as (_ & _ & w & Hw & Eb).
        rewrite Forall_forall in H3. specialize (H3 w Hw). unfold vlt in H3. rewrite Eb, Ea in H3. now apply lt_irrefl in H3. }
      apply dir_NoDup in H. clear - H IH Cross. induction H as [|a l1 Ha Hn IHa]; [exact IH|]. cbn [app]. constructor.
      + rewrite in_app_iff. intros [X|X]; [contradiction|]. apply (Cross a); [now left|assumption].
      + apply IHa. intros x Hx. apply Cross. now right.
    - now apply NoDup_filter.
    - intros e. rewrite (concat_in _ F), filter_In, type_okb_ok, In0, has_edge_iff. split.
      + intros (A & B & _). auto.
      + intros (A & B). conj; auto. destruct (Ends e) as (v & Hv & Ev); [now apply has_edge_iff|].
        exists v. split; [|exact Ev]. apply Hi. now apply has_vertex_iff.
  Qed.
End Nav.
