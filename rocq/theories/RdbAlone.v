(** * A call that runs without interference does what [Rdb.v] says. *)
From Verif Require Import Base OMap Json Types Util Db Rdb Conc RdbProg.

Set Implicit Arguments.

Lemma alone_bind {A B} env (p : prog A) (f : A -> prog B) : forall s,
  alone env s (pbind p f) = sbind (alone env s p) (fun a s' => alone env s' (f a)).
Proof.
  induction p as [x|k IH|k IH|k IH|k IH|ix k IH|b k IH]; intros s; cbn [pbind alone].
  - destruct x; reflexivity.
  - apply IH.
  - apply IH.
  - apply IH.
  - apply IH.
  - apply IH.
  - destruct (wok env); [apply IH|reflexivity].
Qed.

Section Alone.
  Variable H : list byte -> N.
  Variable enc : json -> bytes.
  Variable dec : bytes -> option json.
  Variable env : renv.
  Notation ops := (rdb_ops H enc dec env).

  Section State.
  Variable s : rstate.

  (** [p] only reads, and yields [x]. *)
  Definition yields {A} (p : prog A) (x : outcome A) : Prop := alone env s p = (x, s).

  Lemma y_ret {A} (x : outcome A) : yields (PRet x) x.
  Proof. reflexivity. Qed.
  Lemma y_rd {A} (f : db -> outcome A) : yields (rd f) (f (r_db s)).
  Proof. reflexivity. Qed.
  Lemma y_bind {A B} (p : prog A) (f : A -> prog B) x (g : A -> outcome B) :
    yields p x -> (forall a, yields (f a) (g a)) -> yields (pbind p f) (obind x g).
  Proof.
    unfold yields. intros E F. rewrite alone_bind, E. destruct x; cbn; auto.
  Qed.
  Lemma y_eq {A} (p : prog A) x y : yields p x -> x = y -> yields p y.
  Proof. now intros ? <-. Qed.
  Lemma y_map {A B} (f : A -> B) (p : prog A) x : yields p x -> yields (pmap f p) (omapo f x).
  Proof.
    intros E. unfold pmap. eapply y_eq; [eapply y_bind; [exact E|intros; apply y_ret]|]. now destruct x.
  Qed.

  Lemma y_specific_vertices ids : exists it, t_specific_vertices ops s ids = Ok it /\ yields (p_specific_vertices H ids) (Ok it).
  Proof.
    cbn. unfold rdb_specific_vertices. eexists. split; [reflexivity|]. induction ids as [|id ids IH]; [reflexivity|].
    cbn [p_specific_vertices]. eapply y_eq; [eapply y_bind; [apply y_rd|]; intros a; eapply y_bind; [exact IH|]; intros; apply y_ret|].
    cbn. now destruct (vertex_get H (r_db s) id) as [[t|]| |].
  Qed.

  Lemma y_specific_vertices' ids : yields (p_specific_vertices H ids) (t_specific_vertices ops s ids).
  Proof. destruct (y_specific_vertices ids) as (it & -> & E). exact E. Qed.

  Lemma y_existing l : yields (p_existing H l) (Ok (existing_ids H s l)).
  Proof.
    induction l as [|x l IH]; [reflexivity|]. cbn [p_existing]. destruct x as [id|e|].
    - eapply y_eq; [eapply y_bind; [apply y_rd|]; intros a; eapply y_bind; [exact IH|]; intros; apply y_ret|].
      cbn. now destruct (vertex_exists H (r_db s) id).
    - eapply y_eq; [eapply y_bind; [exact IH|]; intros; apply y_ret|]. reflexivity.
    - eapply y_eq; [eapply y_bind; [exact IH|]; intros; apply y_ret|]. reflexivity.
  Qed.

  Lemma y_ix {A} (f : oset ident -> prog A) x : yields (f (r_indexed s)) x -> yields (PIx f) x.
  Proof. auto. Qed.

  Lemma y_vids n : yields (p_vertex_ids_with_property H n) (t_vertex_ids_with_property ops s n).
  Proof.
    apply y_ix. cbn. unfold rdb_vertex_ids_with_property. destruct (mem n (r_indexed s)); [|reflexivity].
    unfold yields. cbn [alone]. apply (y_map Some (y_existing _)).
  Qed.
  Lemma y_vidsv n v : yields (p_vertex_ids_with_property_value H n v) (t_vertex_ids_with_property_value ops s n v).
  Proof.
    apply y_ix. cbn. unfold rdb_vertex_ids_with_property_value. destruct (mem n (r_indexed s)); [|reflexivity].
    unfold yields. cbn [alone]. apply (y_map Some (y_existing _)).
  Qed.
  Lemma y_eids n : yields (p_edges_with_property H n) (t_edges_with_property ops s n).
  Proof. apply y_ix. cbn. unfold rdb_edges_with_property. destruct (mem n (r_indexed s)); reflexivity. Qed.
  Lemma y_eidsv n v : yields (p_edges_with_property_value H n v) (t_edges_with_property_value ops s n v).
  Proof. apply y_ix. cbn. unfold rdb_edges_with_property_value. destruct (mem n (r_indexed s)); reflexivity. Qed.

  Lemma y_specific_edges es : yields (p_specific_edges H es) (t_specific_edges ops s es).
  Proof.
    cbn. unfold rdb_specific_edges. induction es as [|e es IH]; [reflexivity|].
    cbn [p_specific_edges]. eapply y_eq; [eapply y_bind; [apply y_rd|]; intros a; eapply y_bind; [exact IH|]; intros; apply y_ret|].
    cbn. now destruct (edge_contains H (r_db s) e).
  Qed.

  Lemma y_pipe_vertices dir limit t vs : forall es, yields (p_pipe_vertices H dir limit t vs es) (pipe_vertices ops s dir limit t vs es).
  Proof.
    induction vs as [|v vs IH]; intros es; [reflexivity|]. cbn [p_pipe_vertices pipe_vertices].
    eapply y_bind; [destruct dir; apply y_rd|]. intros it. cbv zeta.
    eapply y_bind; [apply y_ret|]. intros n. eapply y_bind; [apply y_ret|]. intros new.
    destruct (limit <=? lenN (es ++ new))%N; [reflexivity|apply IH].
  Qed.

  Lemma y_pipe_edges dir limit t es : yields (p_pipe_edges H dir limit t es) (pipe_edges ops s dir limit t es).
  Proof. unfold p_pipe_edges, pipe_edges. cbv zeta. eapply y_bind; [apply y_specific_vertices'|]. reflexivity. Qed.

  Lemma y_props_of_vertices name vs : yields (p_props_of_vertices H dec name vs) (props_of_vertices ops s name vs).
  Proof.
    induction vs as [|v vs IH]; [reflexivity|]. cbn [p_props_of_vertices props_of_vertices].
    eapply y_bind.
    - destruct name as [n|].
      + eapply y_bind; [apply y_rd|reflexivity].
      + eapply y_bind; [apply y_rd|]. intros it. eapply y_bind; [apply y_ret|reflexivity].
    - intros props. eapply y_bind; [apply IH|reflexivity].
  Qed.
  Lemma y_props_of_edges name es : yields (p_props_of_edges H dec name es) (props_of_edges ops s name es).
  Proof.
    induction es as [|e es IH]; [reflexivity|]. cbn [p_props_of_edges props_of_edges].
    eapply y_bind.
    - destruct name as [n|].
      + eapply y_bind; [apply y_rd|reflexivity].
      + eapply y_bind; [apply y_rd|]. intros it. eapply y_bind; [apply y_ret|reflexivity].
    - intros props. eapply y_bind; [apply IH|reflexivity].
  Qed.

  Lemma y_indexed {A} (p : prog (option (iter A))) x : yields p x -> yields (p_indexed_or_err p) (indexed_or_err x).
  Proof. intros E. eapply y_bind; [exact E|]. intros [it|]; reflexivity. Qed.

  Lemma y_query q : forall out, yields (p_query H dec q out) (query_exec ops s q out).
  Proof.
    induction q; intros out; cbn [p_query query_exec].
    - eapply y_bind; [apply y_rd|]. intros it. eapply y_bind; [apply y_ret|reflexivity].
    - eapply y_bind; [destruct start; apply y_rd|]. intros it. eapply y_bind; [apply y_ret|reflexivity].
    - eapply y_bind; [apply y_specific_vertices'|]. intros it. eapply y_bind; [apply y_ret|reflexivity].
    - eapply y_bind; [apply y_indexed, y_vids|]. intros ids. eapply y_bind; [apply y_specific_vertices'|].
      intros it. eapply y_bind; [apply y_ret|reflexivity].
    - eapply y_bind; [apply y_indexed, y_vidsv|]. intros ids. eapply y_bind; [apply y_specific_vertices'|].
      intros it. eapply y_bind; [apply y_ret|reflexivity].
    - eapply y_bind; [apply y_rd|]. intros it. eapply y_bind; [apply y_ret|reflexivity].
    - eapply y_bind; [apply y_specific_edges|]. intros it. eapply y_bind; [apply y_ret|reflexivity].
    - eapply y_bind; [apply y_indexed, y_eids|reflexivity].
    - eapply y_bind; [apply y_indexed, y_eidsv|reflexivity].
    - eapply y_bind; [apply IHq|]. intros out1. eapply y_bind; [apply y_ret|]. intros [piped out2].
      eapply y_bind; [|reflexivity]. destruct piped; try reflexivity; apply y_map; [apply y_pipe_vertices|apply y_pipe_edges].
    - eapply y_bind; [apply IHq|]. intros out1. eapply y_bind; [apply y_ret|]. intros [piped out2].
      eapply y_bind; [|reflexivity]. destruct piped; try reflexivity; apply y_map; [apply y_props_of_vertices|apply y_props_of_edges].
    - eapply y_bind; [apply IHq|]. intros out1. eapply y_bind; [apply y_ret|]. intros [piped out2].
      eapply y_bind; [|reflexivity]. destruct piped; try reflexivity;
        (eapply y_bind; [apply y_indexed; (apply y_vids || apply y_eids)|reflexivity]).
    - eapply y_bind; [apply IHq|]. intros out1. eapply y_bind; [apply y_ret|]. intros [piped out2].
      eapply y_bind; [|reflexivity]. destruct piped; try reflexivity;
        (eapply y_bind; [apply y_indexed; (apply y_vidsv || apply y_eidsv)|reflexivity]).
    - eapply y_bind; [apply IHq|]. intros out1. eapply y_bind; [apply y_ret|]. intros [piped out2]. reflexivity.
    - assert (forall out, yields (let! out1 := p_query H dec q out in let! (piped, out2) := PRet (pop out1) in
                   let! n := match piped with
                             | Vertices l => PRet (Ok (lenN l)) | Edges l => PRet (Ok (lenN l))
                             | VertexProperties l => PRet (Ok (lenN l)) | EdgeProperties l => PRet (Ok (lenN l))
                             | Count _ => PRet (Err OperationOnQuery)
                             end in PRet (Ok (Count n :: re_export q piped out2)))
                 (let? out1 := query_exec ops s q out in let? (piped, out2) := pop out1 in
                   let? n := match piped with
                             | Vertices l => Ok (lenN l) | Edges l => Ok (lenN l)
                             | VertexProperties l => Ok (lenN l) | EdgeProperties l => Ok (lenN l)
                             | Count _ => Err OperationOnQuery
                             end in Ok (Count n :: re_export q piped out2))) as G.
      { intros o. eapply y_bind; [apply IHq|]. intros out1. eapply y_bind; [apply y_ret|]. intros [piped out2].
        eapply y_bind; [|reflexivity]. destruct piped; reflexivity. }
      destruct q; try exact (G out); reflexivity.
  Qed.

  (** Batches. *)
  Lemma y_each {A} (l : list (outcome A)) (f : A -> prog batch) (g : A -> outcome batch) :
    (forall a, yields (f a) (g a)) -> yields (p_each l f) (for_each l g).
  Proof.
    intros E. induction l as [|x l IH]; [reflexivity|]. cbn [p_each for_each].
    eapply y_bind; [apply y_ret|]. intros a. eapply y_bind; [apply E|]. intros b. eapply y_bind; [apply IH|reflexivity].
  Qed.
  Lemma y_over {A} (l : list A) (f : A -> prog batch) (g : A -> outcome batch) :
    (forall a, yields (f a) (g a)) -> yields (p_over l f) (over l g).
  Proof. apply y_each. Qed.

  Notation d := (r_db s).
  Lemma y_vprop_delete ix id n : yields (p_vprop_delete H dec ix id n) (vprop_delete H dec d ix id n).
  Proof.
    eapply y_bind; [|reflexivity]. destruct (mem n ix); [|reflexivity]. eapply y_bind; [apply y_rd|reflexivity].
  Qed.
  Lemma y_eprop_delete ix e n : yields (p_eprop_delete H dec ix e n) (eprop_delete H dec d ix e n).
  Proof.
    eapply y_bind; [|reflexivity]. destruct (mem n ix); [|reflexivity]. eapply y_bind; [apply y_rd|reflexivity].
  Qed.
  Lemma y_vprop_set ix id n v : yields (p_vprop_set H enc dec ix id n v) (vprop_set H enc dec d ix id n v).
  Proof. eapply y_bind; [|reflexivity]. destruct (mem n ix); [apply y_vprop_delete|reflexivity]. Qed.
  Lemma y_eprop_set ix e n v : yields (p_eprop_set H enc dec ix e n v) (eprop_set H enc dec d ix e n v).
  Proof. eapply y_bind; [|reflexivity]. destruct (mem n ix); [apply y_eprop_delete|reflexivity]. Qed.
  Lemma y_edge_delete ix e : yields (p_edge_delete H dec ix e) (edge_delete H dec d ix e).
  Proof.
    unfold p_edge_delete, edge_delete.
    eapply y_eq; [eapply y_bind; [apply y_rd|]; intros l;
      eapply y_bind; [apply y_each; intros a; apply y_eprop_delete|]; intros b; apply y_ret|].
    reflexivity.
  Qed.
  Lemma y_vertex_delete ix id : yields (p_vertex_delete H dec ix id) (vertex_delete H dec d ix id).
  Proof.
    unfold p_vertex_delete, vertex_delete.
    assert (forall e, yields (if eqb (eout e) id then p_edge_delete H dec ix e else PRet Panic)
                             (dassert (eqb (eout e) id) (edge_delete H dec d ix e))) as E.
    { intros e. destruct (eqb (eout e) id); [apply y_edge_delete|reflexivity]. }
    eapply y_eq; [eapply y_bind; [apply y_rd|]; intros l1;
      eapply y_bind; [apply y_each; intros a; apply y_vprop_delete|]; intros b1;
      eapply y_bind; [apply y_rd|]; intros l2;
      eapply y_bind; [apply y_each, E|]; intros b2;
      eapply y_bind; [apply y_rd|]; intros l3;
      eapply y_bind; [apply y_each, E|]; intros b3; apply y_ret|].
    cbn [obind]. reflexivity.
  Qed.
  Lemma y_bulk_item it : yields (p_bulk_item H enc dec (r_indexed s) it) (bulk_item_batch H enc dec s it).
  Proof. destruct it; cbn [p_bulk_item bulk_item_batch]; [reflexivity|reflexivity|apply y_vprop_set|apply y_eprop_set]. Qed.

  (** Building under the read guard, then writing. *)
  Lemma a_guarded (f : oset ident -> prog batch) (b : outcome batch) :
    yields (f (r_indexed s)) b ->
    alone env s (p_guarded f) = resw (fun _ => RUnit) (write_built env s b).
  Proof.
    intros E. unfold p_guarded. cbn [alone]. rewrite alone_bind, E. unfold write_built, write, resw.
    destruct b; cbn [sbind alone fst snd omapo obind]; try reflexivity. destruct (wok env); reflexivity.
  Qed.

  Lemma a_create_vertex v : alone env s (p_create_vertex H v) = rdb_create_vertex H env s v.
  Proof.
    unfold p_create_vertex, rdb_create_vertex. rewrite alone_bind. cbn [alone rd sbind].
    destruct (vertex_exists H d (vid v)); [reflexivity|]. cbn [alone]. unfold write. destruct (wok env); reflexivity.
  Qed.

  Lemma a_create_edge e : alone env s (p_create_edge H e) = rdb_create_edge H env s e.
  Proof.
    unfold p_create_edge, rdb_create_edge. rewrite alone_bind. cbn [alone rd sbind].
    destruct (vertex_exists H d (eout e)); [|reflexivity]. cbn [negb orb]. rewrite alone_bind. cbn [alone rd sbind].
    destruct (vertex_exists H d (ein e)); [|reflexivity]. cbn [negb]. rewrite alone_bind. cbn [alone rd p_edge_set sbind].
    unfold write. destruct (wok env); reflexivity.
  Qed.

  End State.

  Lemma a_index s n : alone env s (p_index_property H dec env n) = resw (fun _ => RUnit) (rdb_index_property H dec env s n).
  Proof.
    unfold p_index_property, rdb_index_property. cbn [alone]. destruct (mem n (r_indexed s)); [reflexivity|].
    cbv zeta. cbn [alone]. set (s1 := RState (r_db s) (add n (r_indexed s)) (r_log s)).
    assert (forall (A : Type) (p : prog A) (x : outcome A) (f : A -> prog res) (g : A -> outcome batch) h,
              alone env s1 p = (x, s1) -> (forall a, alone env s1 (f a) = resw h (write_built env s1 (g a))) ->
              alone env s1 (pbind p f) = resw h (write_built env s1 (obind x g))) as W.
    { intros A p x f g h E F. rewrite alone_bind, E. destruct x; cbn [sbind obind]; [apply F|reflexivity|reflexivity]. }
    set (b1 := for_each (vertices_from H (r_db s) nil_uuid) _). set (b2 := for_each (edges_all (r_db s)) _).
    transitivity (resw (fun _ => RUnit) (write_built env s1 (let? vs := Ok (vertices_from H (r_db s) nil_uuid) in let? x1 := b1 in
        let? es := Ok (edges_all (r_db s)) in let? x2 := b2 in
        Ok ([Put CFM meta_key (bin_idents (iord env (keys (add n (r_indexed s)))))] ++ x1 ++ x2)))); [|reflexivity].
    rewrite alone_bind. change (alone env s1 (rd (fun d0 => Ok (vertices_from H d0 nil_uuid)))) with (Ok (vertices_from H (r_db s) nil_uuid), s1).
    cbn [sbind obind]. apply W.
    { apply (@y_each s1). intros v. eapply y_bind; [apply y_rd|reflexivity]. }
    intros x1. rewrite alone_bind. change (alone env s1 (rd (fun d0 => Ok (edges_all d0)))) with (Ok (edges_all (r_db s)), s1).
    cbn [sbind]. apply W.
    { apply (@y_each s1). intros v. eapply y_bind; [apply y_rd|reflexivity]. }
    intros x2. cbn [alone write_built]. unfold write. destruct (wok env); reflexivity.
  Qed.

  (** Every call, when it runs alone, does what [rdb_step] says. *)
  Theorem alone_step s o : alone env s (prog_of H enc dec env o) = rdb_step H enc dec s (env, o).
  Proof.
    unfold rdb_step. cbn [fst snd]. destruct o; cbn [prog_of exec].
    - unfold pmap. rewrite alone_bind, a_create_vertex. unfold resw. cbn [t_create_vertex rdb_ops].
      destruct (rdb_create_vertex H env s v) as [[b|e|] s']; reflexivity.
    - rewrite alone_bind, a_create_vertex. unfold resw, db_create_vertex_from_type. cbn [t_create_vertex rdb_ops].
      destruct (rdb_create_vertex H env s (Vertex id t)) as [[[]|e|] s']; reflexivity.
    - unfold pmap. rewrite alone_bind, a_create_edge. unfold resw. cbn [t_create_edge rdb_ops].
      destruct (rdb_create_edge H env s e) as [[b|e'|] s']; reflexivity.
    - rewrite alone_bind, (y_query s q []). unfold db_get. destruct (query_exec ops s q []); reflexivity.
    - unfold p_delete, db_delete. rewrite alone_bind, (y_query s q []).
      destruct (query_exec ops s q []) as [out|e|]; cbn [sbind obind]; try reflexivity.
      destruct out as [|v out]; [reflexivity|]. cbn [pop]. rewrite alone_bind. cbn [alone sbind].
      destruct v; cbn [t_delete_vertices t_delete_edges t_delete_vertex_properties t_delete_edge_properties rdb_ops]; try reflexivity;
        apply a_guarded, y_over; intros.
      + apply y_vertex_delete.
      + eapply y_bind; [apply y_rd|]. intros [t|]; [apply y_edge_delete|reflexivity].
      + apply y_vprop_delete.
      + apply y_eprop_delete.
    - unfold p_set_properties, db_set_properties. rewrite alone_bind, (y_query s q []).
      destruct (query_exec ops s q []) as [out|e|]; cbn [sbind obind]; try reflexivity.
      destruct out as [|v out]; [reflexivity|]. cbn [pop]. rewrite alone_bind. cbn [alone sbind].
      destruct v; cbn [t_set_vertex_properties t_set_edge_properties rdb_ops]; try reflexivity;
        apply a_guarded, y_over; intros; [apply y_vprop_set|apply y_eprop_set].
    - apply a_guarded, y_over. intros. apply y_bulk_item.
    - apply a_index.
    - cbn [alone]. cbn. unfold rdb_sync, resw. cbn. now destruct (wok env).
    - apply a_guarded, y_over; intros. apply y_vertex_delete.
    - apply a_guarded, y_over; intros. eapply y_bind; [apply y_rd|]. intros [t|]; [apply y_edge_delete|reflexivity].
    - apply a_guarded, y_over; intros. apply y_vprop_delete.
    - apply a_guarded, y_over; intros. apply y_eprop_delete.
    - apply a_guarded, y_over; intros. apply y_vprop_set.
    - apply a_guarded, y_over; intros. apply y_eprop_set.
  Qed.
End Alone.
