(** * What a call asks for, and what the RocksDB datastore does about it.

    [resolves] splits [spec_step] in two: the result of a call with the update
    it asks for, and the effect of that update on the graph.  The RocksDB
    datastore resolves calls the same way but carries some updates out
    differently ([r_apply]): it leaves edges into deleted vertices in place,
    ignores deletions of edges whose outbound vertex is missing, and inserts
    bulk items without any check. *)
From Verif Require Import Base OMap Json Types Db Spec QueryFacts SpecFacts.

Set Implicit Arguments.

Inductive action :=
| ANone
| ACreateVertex (v : vertex)
| ACreateEdge (e : edge)
| ADeleteVertices (ids : list uuid)
| ADeleteEdges (es : list edge)
| ADeleteVProps (ps : list (uuid * ident))
| ADeleteEProps (ps : list (edge * ident))
| ASetVProps (ids : list uuid) (n : ident) (x : json)
| ASetEProps (es : list edge) (n : ident) (x : json)
| ABulk (items : list bulk_item)
| AIndex (n : ident).

(** The specified effect. *)
Definition g_apply (g : graph) (a : action) : graph :=
  match a with
  | ANone => g
  | ACreateVertex v => g_create_vertex g v
  | ACreateEdge e => g_create_edge g e
  | ADeleteVertices ids => g_delete_vertices g ids
  | ADeleteEdges es => g_delete_edges g es
  | ADeleteVProps ps => g_delete_vertex_properties g ps
  | ADeleteEProps ps => g_delete_edge_properties g ps
  | ASetVProps ids n x => g_set_vertex_properties g ids n x
  | ASetEProps es n x => g_set_edge_properties g es n x
  | ABulk items => g_bulk_insert g items
  | AIndex n => g_index_property g n
  end.

Section Resolves.
  Variable tlt : ident -> ident -> Prop.
  Variable vmatch : json -> json -> Prop.

  Inductive resolves (g : graph) : op -> outcome res -> action -> Prop :=
  | re_create_vertex v :
      resolves g (OCreateVertex v) (Ok (RBoolean (negb (mem (vid v) (gv g))))) (ACreateVertex v)
  | re_create_type_ok id t :
      mem id (gv g) = false -> resolves g (OCreateVertexFromType id t) (Ok (RUuid id)) (ACreateVertex (Vertex id t))
  | re_create_type_taken id t :
      mem id (gv g) = true -> resolves g (OCreateVertexFromType id t) (Err UuidTaken) ANone
  | re_create_edge e :
      resolves g (OCreateEdge e) (Ok (RBoolean (mem (eout e) (gv g) && mem (ein e) (gv g)))) (ACreateEdge e)
  | re_get q ex v : evals tlt vmatch g q ex v -> resolves g (OGet q) (Ok (ROut (ex ++ [v]))) ANone
  | re_get_err q e : fails tlt vmatch g q e -> resolves g (OGet q) (Err e) ANone
  | re_delete_vertices q ex vs :
      evals tlt vmatch g q ex (Vertices vs) -> resolves g (ODelete q) (Ok RUnit) (ADeleteVertices (map vid vs))
  | re_delete_edges q ex es :
      evals tlt vmatch g q ex (Edges es) -> resolves g (ODelete q) (Ok RUnit) (ADeleteEdges es)
  | re_delete_vprops q ex l :
      evals tlt vmatch g q ex (VertexProperties l) -> resolves g (ODelete q) (Ok RUnit) (ADeleteVProps (vprop_keys l))
  | re_delete_eprops q ex l :
      evals tlt vmatch g q ex (EdgeProperties l) -> resolves g (ODelete q) (Ok RUnit) (ADeleteEProps (eprop_keys l))
  | re_delete_count q ex n :
      evals tlt vmatch g q ex (Count n) -> resolves g (ODelete q) (Err OperationOnQuery) ANone
  | re_delete_err q e : fails tlt vmatch g q e -> resolves g (ODelete q) (Err e) ANone
  | re_set_vertices q n x ex vs :
      evals tlt vmatch g q ex (Vertices vs) ->
      resolves g (OSetProperties q n x) (Ok RUnit) (ASetVProps (map vid vs) n x)
  | re_set_edges q n x ex es :
      evals tlt vmatch g q ex (Edges es) -> resolves g (OSetProperties q n x) (Ok RUnit) (ASetEProps es n x)
  | re_set_kind q n x ex v :
      evals tlt vmatch g q ex v -> is_elems v = false ->
      resolves g (OSetProperties q n x) (Err OperationOnQuery) ANone
  | re_set_err q n x e : fails tlt vmatch g q e -> resolves g (OSetProperties q n x) (Err e) ANone
  | re_bulk items : resolves g (OBulkInsert items) (Ok RUnit) (ABulk items)
  | re_index n : resolves g (OIndexProperty n) (Ok RUnit) (AIndex n)
  | re_sync : resolves g OSync (Ok RUnit) ANone
  | re_tdv vs : resolves g (TDeleteVertices vs) (Ok RUnit) (ADeleteVertices (map vid vs))
  | re_tde es : resolves g (TDeleteEdges es) (Ok RUnit) (ADeleteEdges es)
  | re_tdvp ps : resolves g (TDeleteVertexProperties ps) (Ok RUnit) (ADeleteVProps ps)
  | re_tdep ps : resolves g (TDeleteEdgeProperties ps) (Ok RUnit) (ADeleteEProps ps)
  | re_tsv ids n x : resolves g (TSetVertexProperties ids n x) (Ok RUnit) (ASetVProps ids n x)
  | re_tse es n x : resolves g (TSetEdgeProperties es n x) (Ok RUnit) (ASetEProps es n x).

  Lemma spec_step_resolves g o r g' :
    spec_step tlt vmatch g o r g' <-> exists a, resolves g o r a /\ g' = g_apply g a.
  Proof.
    split.
    - intros []; eexists; (split; [econstructor; eassumption|reflexivity]).
    - intros (a & [] & ->); cbn [g_apply]; econstructor; eassumption.
  Qed.
End Resolves.

(** ** The effects on RocksDB *)

(** The vertices, the edges out of them, their properties.  (Edge properties
    also go when only the reverse edge exists: properties that belong to no
    edge.) *)
Definition r_delete_vertices (g : graph) (ids : list uuid) : graph :=
  Graph (filt (fun kv => negb (inb (fst kv) ids)) (gv g))
        (filt (fun kv => negb (inb (eout (fst kv)) ids)) (ge g))
        (filt (fun kv => negb (inb (fst (fst kv)) ids)) (gvp g))
        (filt (fun kv => negb (inb (eout (fst (fst kv))) ids &&
                               (mem (fst (fst kv)) (ge g) || mem (reversed (fst (fst kv))) (ge g)))) (gep g))
        (gix g).

(** Only edges whose outbound vertex exists. *)
Definition r_delete_edges (g : graph) (es : list edge) : graph :=
  g_delete_edges g (filter (fun e => mem (eout e) (gv g)) es).

(** No checks: vertices are overwritten, edges need no endpoints. *)
Definition r_bulk_item (g : graph) (it : bulk_item) : graph :=
  match it with
  | BVertex v => Graph (set (vid v) (vt v) (gv g)) (ge g) (gvp g) (gep g) (gix g)
  | BEdge e => Graph (gv g) (add e (ge g)) (gvp g) (gep g) (gix g)
  | BVProp id n v => g_set_vertex_properties g [id] n v
  | BEProp e n v => g_set_edge_properties g [e] n v
  end.
Definition r_bulk_insert (g : graph) (items : list bulk_item) : graph := fold_left r_bulk_item items g.

Definition r_apply (g : graph) (a : action) : graph :=
  match a with
  | ADeleteVertices ids => r_delete_vertices g ids
  | ADeleteEdges es => r_delete_edges g es
  | ABulk items => r_bulk_insert g items
  | _ => g_apply g a
  end.

(** One call on RocksDB whose write succeeds. *)
Definition r_step (tlt : ident -> ident -> Prop) (vmatch : json -> json -> Prop) (g : graph) (o : op) (r : outcome res)
  (g' : graph) : Prop := exists a, resolves tlt vmatch g o r a /\ g' = r_apply g a.

Lemma g_set_vprops_cons g id ids n x :
  g_set_vertex_properties g (id :: ids) n x = g_set_vertex_properties (g_set_vertex_properties g [id] n x) ids n x.
Proof. reflexivity. Qed.
Lemma r_bulk_vprops ids n x : forall g, r_bulk_insert g (map (fun id => BVProp id n x) ids) = g_set_vertex_properties g ids n x.
Proof.
  unfold r_bulk_insert. induction ids as [|id ids IH]; intros g; cbn [map fold_left]; [now destruct g|].
  rewrite IH. reflexivity.
Qed.
Lemma r_bulk_eprops es n x : forall g, r_bulk_insert g (map (fun e => BEProp e n x) es) = g_set_edge_properties g es n x.
Proof.
  unfold r_bulk_insert. induction es as [|e es IH]; intros g; cbn [map fold_left]; [now destruct g|].
  rewrite IH. reflexivity.
Qed.
