(** * Concrete cases for the theorems of PropsMem.v and PropsRdb.v

    One history, run on both backends; each example shows that the hypotheses of
    the theorem it is named after hold of a non-trivial state, query or call, and
    what the conclusion says there. *)
From Verif Require Import Base OMap Json Types Util Db Mem Rdb Spec QueryFacts SpecFacts QueryTrust JsonFacts UtilFacts
  MemFacts MemRefine MemHist RdbSpec RdbGraph RdbRep RdbPut RdbRefine RdbHist Stages Effects Claims PropsMem Examples PropsMemIndex PropsRdb PropsRdbIndex.

Set Implicit Arguments.

(** Three vertices, three edges of which one is deleted again, an indexed
    property, properties of vertices and edges, an overwrite. *)
Definition story : list op :=
  [OCreateVertex v1; OCreateVertex v2; OCreateVertex v3; OCreateEdge e12; OCreateEdge e21; OCreateEdge e23;
   OIndexProperty n_name; OSetProperties (QSpecificVertex [u1; u2]) n_name j_bob; OSetProperties (q_vertex u1) n_age j_true;
   OSetProperties (q_edge e12) n_name j_true; OSetProperties QAllEdge n_age j_3; ODelete (q_edge e21);
   OSetProperties (q_vertex u2) n_name j_3].

(** What holds of the database after the story, in debug and release builds. *)
Definition mem_after (P : bool -> memory -> Prop) : Prop :=
  forall dbg, exists m, mem_run dbg (calls story) = Some m /\ P dbg m.
Lemma mem_after_intro (P : bool -> memory -> Prop) :
  (match mem_run true (calls story) with Some m => P true m | None => False end) ->
  (match mem_run false (calls story) with Some m => P false m | None => False end) -> mem_after P.
Proof. intros T F []; (apply run_with; assumption). Qed.
Ltac after := apply mem_after_intro; vm_compute; repeat split; try discriminate.
Notation mops dbg := (mem_ops dbg id_order).
Notation rs := (run0 (ok_calls story)).
(** The state after one more call. *)
Definition then_ {S} (ops : txn_ops S) (s : S) (o : op) (P : outcome res -> S -> Prop) : Prop :=
  let '(r, s') := exec ops s o in P r s'.

Example story_good : good_history enc0 dec0 (ok_calls story) /\ no_bulk (ok_calls story) /\ steady (ok_calls story) /\ tidy_history true (calls story).
Proof.
  split; [good0|]. split; [repeat constructor; discriminate|]. split; [apply ok_steady|]. apply api_tidy. reflexivity.
Qed.

(** A query with two steps, a limit and an included intermediate result. *)
Definition q_steps : query :=
  QPipe (QInclude (QPipe QAllVertex Outbound 10 (Some t_likes))) Inbound 1 None.
(** Every edge. *)
Definition q_out : query := QPipe QAllVertex Outbound 4294967295 None.

Example C01_case : (forall n, leaf q_out <> QEdgeWithPropertyPresence n) /\
  mem_after (fun dbg m => db_get (mops dbg) m q_out = Ok [Edges [e12; e23]] /\
    db_get (mops dbg) m q_steps = Ok [Edges [e12; e23]; Vertices [v2]]).
Proof. split; [discriminate|]. after. Qed.

Example C02_case :
  mem_after (fun dbg m => then_ (mops dbg) m (OCreateVertex vmax) (fun r m' => r = Ok (RBoolean true) /\
      db_get (mops dbg) m (q_vertex umax) = Ok [Vertices []] /\ db_get (mops dbg) m' (q_vertex umax) = Ok [Vertices [vmax]]) /\
    fst (exec (mops dbg) m (OCreateVertex (Vertex u1 t_likes))) = Ok (RBoolean false)) /\
  then_ ops0 rs (OCreateVertex vmax) (fun r s' => r = Ok (RBoolean true) /\
      db_get ops0 rs (q_vertex umax) = Ok [Vertices []] /\ db_get ops0 s' (q_vertex umax) = Ok [Vertices [vmax]]) /\
  fst (exec ops0 rs (OCreateVertex (Vertex u1 t_likes))) = Ok (RBoolean false) /\
  fst (exec (rdb_ops hash0 enc0 dec0 fail_env) rs (OCreateVertex vmax)) = Err EDatastore.
Proof. split; [after|]. vm_compute. auto 10. Qed.

(** [e21] again; an edge to a missing vertex; an edge that exists. *)
Example C03_case :
  mem_after (fun dbg m => then_ (mops dbg) m (OCreateEdge e21) (fun r m' => r = Ok (RBoolean true) /\
      db_get (mops dbg) m QAllEdge = Ok [Edges [e12; e23]] /\ db_get (mops dbg) m' QAllEdge = Ok [Edges [e12; e21; e23]]) /\
    fst (exec (mops dbg) m (OCreateEdge (Edge u1 t_likes umax))) = Ok (RBoolean false) /\
    mem e12 (ge (gof m)) = true) /\
  then_ ops0 rs (OCreateEdge e21) (fun r s' => r = Ok (RBoolean true) /\
      db_get ops0 rs QAllEdge = Ok [Edges [e12; e23]] /\ db_get ops0 s' QAllEdge = Ok [Edges [e12; e21; e23]]) /\
  fst (exec ops0 rs (OCreateEdge (Edge u1 t_likes umax))) = Ok (RBoolean false) /\
  mem e12 (ge (rgof dec0 rs)) = true.
Proof. split; [after|]. vm_compute. auto 10. Qed.

(** Deleting [v2], which has an edge in and an edge out, both with properties. *)
Example C04_case :
  mem_after (fun dbg m => answer (mops dbg) m (q_vertex u2) = Ok (Vertices [v2]) /\
    then_ (mops dbg) m (ODelete (q_vertex u2)) (fun r m' => r = Ok RUnit /\
      db_get (mops dbg) m' QAllVertex = Ok [Vertices [v1; v3]] /\ db_get (mops dbg) m' QAllEdge = Ok [Edges []] /\
      mem (e12, n_name) (gep (gof m)) = true /\ mem (e12, n_name) (gep (gof m')) = false /\
      mem (u2, n_name) (gvp (gof m)) = true /\ mem (u2, n_name) (gvp (gof m')) = false /\
      mem (u1, n_name) (gvp (gof m')) = true)).
Proof. after. Qed.
(** RocksDB: [v1] has only an edge out, [v2] also one in, which stays. *)
Example C05_case :
  answer ops0 rs (q_vertex u1) = Ok (Vertices [v1]) /\
  then_ ops0 rs (ODelete (q_vertex u1)) (fun r s' => r = Ok RUnit /\
    db_get ops0 s' QAllVertex = Ok [Vertices [v2; v3]] /\ db_get ops0 s' QAllEdge = Ok [Edges [e23]]) /\
  answer ops0 rs (q_vertex u2) = Ok (Vertices [v2]) /\
  then_ ops0 rs (ODelete (q_vertex u2)) (fun r s' => r = Ok RUnit /\
    db_get ops0 s' QAllVertex = Ok [Vertices [v1; v3]] /\ db_get ops0 s' QAllEdge = Ok [Edges [e12]]).
Proof. vm_compute. auto 10. Qed.

Example C06_case :
  mem_after (fun dbg m => answer (mops dbg) m (QPipe (q_vertex u1) Outbound 5 None) = Ok (Edges [e12]) /\
    then_ (mops dbg) m (ODelete (QPipe (q_vertex u1) Outbound 5 None)) (fun r m' => r = Ok RUnit /\
      db_get (mops dbg) m' QAllEdge = Ok [Edges [e23]] /\ mem (e12, n_name) (gep (gof m')) = false /\ mem (e23, n_age) (gep (gof m')) = true)) /\
  answer ops0 rs (QPipe (q_vertex u1) Outbound 5 None) = Ok (Edges [e12]) /\ mem e12 (ge (rgof dec0 rs)) = true /\
  then_ ops0 rs (ODelete (QPipe (q_vertex u1) Outbound 5 None)) (fun r s' => r = Ok RUnit /\
    db_get ops0 s' QAllEdge = Ok [Edges [e23]] /\ mem (e12, n_name) (gep (rgof dec0 s')) = false /\ mem (e23, n_age) (gep (rgof dec0 s')) = true).
Proof. split; [after|]. vm_compute. repeat split; discriminate. Qed.

(** Properties of two vertices, of two edges; deleting one of each. *)
Inductive keys := VKeys (l : list (uuid * ident)) | EKeys (l : list (edge * ident)) | NoKeys.
Definition keys_of (x : outcome outv) : keys :=
  match x with Ok (VertexProperties l) => VKeys (vprop_keys l) | Ok (EdgeProperties l) => EKeys (eprop_keys l) | _ => NoKeys end.
Definition vnamed (n : ident) : query := QPipeProperty QAllVertex (Some n).
Definition enamed (n : ident) : query := QPipeProperty QAllEdge (Some n).
Definition C07_holds {S} (ops : txn_ops S) (s : S) : Prop :=
  answer ops s (QRangeVertex 2 None (Some u2)) = Ok (Vertices [v2; v3]) /\
  then_ ops s (OSetProperties (QRangeVertex 2 None (Some u2)) n_age j_bob) (fun r s' => r = Ok RUnit /\
    keys_of (answer ops s (vnamed n_age)) = VKeys [(u1, n_age)] /\
    keys_of (answer ops s' (vnamed n_age)) = VKeys [(u1, n_age); (u2, n_age); (u3, n_age)] /\
    json_eq (match answer ops s' (q_vprop u3 n_age) with Ok (VertexProperties [VProps _ [NProp _ x]]) => x | _ => j_true end) j_bob = true) /\
  answer ops s QAllEdge = Ok (Edges [e12; e23]) /\
  then_ ops s (OSetProperties QAllEdge n_name j_bob) (fun r s' => r = Ok RUnit /\
    keys_of (answer ops s (enamed n_name)) = EKeys [(e12, n_name)] /\
    keys_of (answer ops s' (enamed n_name)) = EKeys [(e12, n_name); (e23, n_name)]) /\
  then_ ops s (ODelete (q_vprop u1 n_name)) (fun r s' => r = Ok RUnit /\
    keys_of (answer ops s (q_vprop u1 n_name)) = VKeys [(u1, n_name)] /\
    keys_of (answer ops s (vnamed n_name)) = VKeys [(u1, n_name); (u2, n_name)] /\
    keys_of (answer ops s' (vnamed n_name)) = VKeys [(u2, n_name)]) /\
  then_ ops s (ODelete (q_eprop e12 n_age)) (fun r s' => r = Ok RUnit /\
    keys_of (answer ops s (q_eprop e12 n_age)) = EKeys [(e12, n_age)] /\
    keys_of (answer ops s (enamed n_age)) = EKeys [(e12, n_age); (e23, n_age)] /\
    keys_of (answer ops s' (enamed n_age)) = EKeys [(e23, n_age)]).
Example C07_case : mem_after (fun dbg m => C07_holds (mops dbg) m) /\ C07_holds ops0 rs /\ lossless enc0 dec0 j_bob.
Proof. split; [after|]. split; [|reflexivity]. vm_compute. repeat split. Qed.

Example C08_case : index_names q_steps = [] /\
  mem_after (fun dbg m => db_get (mops dbg) m q_steps = Ok [Edges [e12; e23]; Vertices [v2]] /\
    db_get (mops dbg) m (QPipe (QCount QAllVertex) Outbound 1 None) = Err OperationOnQuery) /\
  db_get ops0 rs q_steps = Ok [Edges [e12; e23]; Vertices [v2]] /\
  db_get ops0 rs (QPipe (QCount QAllVertex) Outbound 1 None) = Err OperationOnQuery.
Proof. split; [reflexivity|]. split; [after|]. vm_compute. auto. Qed.

(** Two pages of at most two vertices. *)
Example C09_case :
  mem_after (fun dbg m => db_get (mops dbg) m (QRangeVertex 2 None None) = Ok [Vertices [v1; v2]] /\
    db_get (mops dbg) m (QRangeVertex 2 (Some t_likes) (Some u1)) = Ok [Vertices [v3]] /\
    page (mops dbg) m 2 None u1 = [v1; v2] /\ page (mops dbg) m 2 None u3 = [v3]) /\
  db_get ops0 rs (QRangeVertex 2 None None) = Ok [Vertices [v1; v2]] /\
  db_get ops0 rs (QRangeVertex 2 (Some t_likes) (Some u1)) = Ok [Vertices [v3]] /\
  page ops0 rs 2 None u1 = [v1; v2] /\ page ops0 rs 2 None u3 = [v3].
Proof. split; [after|]. vm_compute. auto. Qed.

Example C10_case :
  mem_after (fun dbg m => answer (mops dbg) m (QPipe QAllVertex Outbound 2 None) = Ok (Edges [e12; e23]) /\
    answer (mops dbg) m (QPipe QAllVertex Outbound 1 None) = Ok (Edges [e12])) /\
  answer ops0 rs (QPipe QAllVertex Outbound 2 None) = Ok (Edges [e12; e23]) /\
  answer ops0 rs (QPipe QAllVertex Outbound 1 None) = Ok (Edges [e12]).
Proof. split; [after|]. vm_compute. auto. Qed.

Example C11_case : included q_steps = [QInclude (QPipe QAllVertex Outbound 10 (Some t_likes))] /\
  strip q_steps = QPipe (QPipe QAllVertex Outbound 10 (Some t_likes)) Inbound 1 None /\
  mem_after (fun dbg m => db_get (mops dbg) m q_steps = Ok ([Edges [e12; e23]] ++ [Vertices [v2]]) /\
    db_get (mops dbg) m (strip q_steps) = Ok [Vertices [v2]]) /\
  db_get ops0 rs q_steps = Ok ([Edges [e12; e23]] ++ [Vertices [v2]]) /\ db_get ops0 rs (strip q_steps) = Ok [Vertices [v2]].
Proof. split; [reflexivity|]. split; [reflexivity|]. split; [after|]. vm_compute. auto. Qed.

Example C12_case :
  mem_after (fun dbg m => answer (mops dbg) m (QCount q_out) = Ok (Count 2) /\
    answer (mops dbg) m (QCount (QCount q_out)) = Err OperationOnQuery /\ answer (mops dbg) m (QCount (vnamed n_name)) = Ok (Count 2)) /\
  answer ops0 rs (QCount q_out) = Ok (Count 2) /\
  answer ops0 rs (QCount (QCount q_out)) = Err OperationOnQuery /\ answer ops0 rs (QCount (vnamed n_name)) = Ok (Count 2).
Proof. split; [after|]. vm_compute. auto. Qed.

(** A query made with the builders; a database whose largest vertex makes the
    in-memory one panic. *)
Lemma steps_built : built q_steps.
Proof.
  apply built_pipe_limit with (l := u32_max). eapply built_pipe with (q := QInclude (QPipe QAllVertex Outbound 10 (Some t_likes))) (d := Inbound); [|reflexivity].
  apply (@built_include (QPipe QAllVertex Outbound 10 (Some t_likes))). apply built_pipe_limit with (l := u32_max), built_pipe_t with (t := None).
  eapply built_pipe with (q := QAllVertex) (d := Outbound); [constructor|reflexivity].
Qed.
Example C13_case : built q_steps /\ output_type q_steps <> Some KCount /\
  mem_after (fun dbg m => db_get (mops dbg) m q_steps = Ok [Edges [e12; e23]; Vertices [v2]] /\ fst (exec (mops dbg) m (ODelete q_steps)) = Ok RUnit) /\
  fst (exec ops0 rs (ODelete q_steps)) = Ok RUnit.
Proof. split; [apply steps_built|]. split; [discriminate|]. split; [after|]. vm_compute. auto. Qed.

Example C16_case : indexed_by story n_name /\ ~ indexed_by story n_age /\
  mem_after (fun dbg m => db_get (mops dbg) m (QVertexWithPropertyPresence n_age) = Err NotIndexed /\
    db_get (mops dbg) m (QCount (QVertexWithPropertyPresence n_name)) = Ok [Count 2] ) /\
  db_get ops0 rs (QVertexWithPropertyPresence n_age) = Err NotIndexed /\
  db_get ops0 rs (QCount (QVertexWithPropertyPresence n_name)) = Ok [Count 2].
Proof.
  split; [cbn; auto 20|]. split.
  { unfold story, indexed_by. cbn. intros X. repeat (destruct X as [X|X]; [discriminate|]). destruct X. }
  split; [|vm_compute; auto]. apply mem_after_intro; vm_compute; auto.
Qed.

(** The key tables of RocksDB after the story: both have the two edges. *)
Example C20_case : (exists outs, db_get ops0 rs q_steps = Ok outs) /\ good_op enc0 dec0 (OSetProperties QAllVertex n_age j_bob) /\
  fst (exec ops0 rs (OSetProperties QAllVertex n_age j_bob)) = Ok RUnit /\
  fst (exec (rdb_ops hash0 enc0 dec0 fail_env) rs (OSetProperties QAllVertex n_age j_bob)) = Err EDatastore.
Proof. split; [eexists; vm_compute; reflexivity|]. split; [reflexivity|]. vm_compute. auto. Qed.
Example C21_case :
  mem (edge_key hash0 e12) (d_edges (r_db rs)) = true /\ mem (edge_key hash0 (reversed e12)) (d_reversed (r_db rs)) = true /\
  mem (edge_key hash0 e21) (d_edges (r_db rs)) = false /\ mem (edge_key hash0 (reversed e21)) (d_reversed (r_db rs)) = false.
Proof. vm_compute. auto. Qed.
Example C22_case : is_edge (rgof dec0 rs) e12 /\ mem (eout e12) (gv (rgof dec0 rs)) = true.
Proof. vm_compute. auto. Qed.

(** Bulk insertion; the largest UUID and a later listing of all properties panics. *)
Definition some_items : list bulk_item := [BVertex vmax; BEdge e21; BEdge (Edge u1 t_likes umax); BVProp u3 n_name j_true; BEProp e21 n_name j_3].
Example C25_case :
  mem_after (fun dbg m => then_ (mops dbg) m (OBulkInsert some_items) (fun r m' => r = Ok RUnit /\
    db_get (mops dbg) m' (q_edge (Edge u1 t_likes umax)) = Ok [Edges [Edge u1 t_likes umax]] /\
    db_get (mops dbg) m' (QPipeProperty QAllVertex None) = Panic /\ db_get (mops dbg) m' (QVertexWithPropertyValue n_name j_true) = Ok [Vertices [v3]])).
Proof. apply mem_after_intro; vm_compute; repeat split. Qed.

Example C26_case :
  mem_after (fun dbg m => fst (exec (mops dbg) m (ODelete (QVertexWithPropertyPresence n_age))) = Err NotIndexed /\
    fst (exec (mops dbg) m (OCreateVertexFromType u1 t_likes)) = Err UuidTaken) /\
  fst (exec ops0 rs (ODelete (QVertexWithPropertyPresence n_age))) = Err NotIndexed /\
  fst (exec (rdb_ops hash0 enc0 dec0 fail_env) rs (ODelete QAllVertex)) = Err EDatastore.
Proof. split; [apply mem_after_intro; vm_compute; auto|]. vm_compute. auto. Qed.

Example C40_case :
  mem_after (fun dbg m => then_ (mops dbg) m (OCreateVertexFromType umax t_likes) (fun r m' => r = Ok (RUuid umax) /\
    db_get (mops dbg) m' (q_vertex umax) = Ok [Vertices [Vertex umax t_likes]])) /\
  then_ ops0 rs (OCreateVertexFromType umax t_likes) (fun r s' => r = Ok (RUuid umax) /\
    db_get ops0 s' (q_vertex umax) = Ok [Vertices [Vertex umax t_likes]]) /\
  fst (exec ops0 rs (OCreateVertexFromType u1 t_likes)) = Err UuidTaken.
Proof. split; [apply mem_after_intro; vm_compute; auto|]. vm_compute. auto. Qed.
