(** * Failing reads of the RocksDB datastore: one call. *)
From Verif Require Import Base OMap Json Types Util Db Rdb RdbFault RdbFaultFacts.

Set Implicit Arguments.

(** The same storage engine, but it refuses writes. *)
Definition refusing (env : renv) : renv := REnv false (iord env) (iord_perm env).

(** Some read fails during the call. *)
Definition faulty (fe : fenv) : Prop := exists c k, fe_get fe c k = true \/ fe_scan fe c k <> None.

Section Step.
  Variable H : list byte -> N.
  Variable enc : json -> bytes.
  Variable dec : bytes -> option json.
  Variable fe : fenv.
  Notation P := (faulty fe).
  Notation may := (may P).
  Notation mayi := (mayi P).

  Lemma get_may d c k : may (f_get fe d c k) (Ok (get k (cf_of d c))).
  Proof.
    unfold f_get. destruct (fe_get fe c k) eqn:E; [|apply may_refl]. right. split; [|reflexivity]. exists c, k. now left.
  Qed.
  Lemma from_may d c k : mayi (f_from fe d c k) (map Ok (from k (cf_of d c))).
  Proof. apply mayi_broken. intros X. exists c, k. now right. Qed.
  Lemma start_may d c : mayi (f_start fe d c) (map Ok (elems (cf_of d c))).
  Proof. apply mayi_broken. intros X. exists c, []. now right. Qed.
  Lemma take_while_ok A (k : A -> bool) l : take_while (ok_or_true k) (map Ok l) = map Ok (take_while k l).
  Proof. induction l as [|x l IH]; [reflexivity|]. cbn. destruct (k x); cbn; [now rewrite IH|reflexivity]. Qed.
  Lemma scan_may d c a b : mayi (f_scan fe d c a b) (map Ok (scan_prefix (cf_of d c) a b)).
  Proof. unfold f_scan, scan_prefix. rewrite <- take_while_ok. apply mayi_take_while, from_may. Qed.
  Lemma decode_may A (f : kv -> outcome A) l l' : mayi l (map Ok l') -> mayi (decode f l) (map f l').
  Proof.
    intros M. replace (map f l') with (decode f (map Ok l')).
    - apply mayi_map; [reflexivity|exact M].
    - unfold decode. rewrite map_map. reflexivity.
  Qed.

  Lemma mem_get A B (O : Ord A) (k : A) (m : omap A B) : mem k m = match get k m with Some _ => true | None => false end.
  Proof. reflexivity. Qed.

  Lemma may_get A d c k (g h : option bytes -> outcome A) :
    g (get k (cf_of d c)) = h (get k (cf_of d c)) -> may (let? o := f_get fe d c k in g o) (h (get k (cf_of d c))).
  Proof. intros E. destruct (get_may d c k) as [-> |(p & ->)]; [left; exact E|right; auto]. Qed.

  Section Db.
    Variable d : db.
    Lemma vertex_exists_may id : may (f_vertex_exists H fe d id) (Ok (vertex_exists H d id)).
    Proof. unfold f_vertex_exists. destruct (get_may d CFV (vertex_key H id)) as [-> |(p & ->)]; [now left|right; auto]. Qed.
    Lemma vertex_get_may id : may (f_vertex_get H fe d id) (vertex_get H d id).
    Proof. unfold f_vertex_get. destruct (get_may d CFV (vertex_key H id)) as [-> |(p & ->)]; [now left|right; auto]. Qed.
    Lemma edge_contains_may e : may (f_edge_contains H fe d e) (Ok (edge_contains H d e)).
    Proof. unfold f_edge_contains. destruct (get_may d CFE (edge_key H e)) as [-> |(p & ->)]; [now left|right; auto]. Qed.
    Lemma vprop_get_may id n : may (f_vprop_get H dec fe d id n) (vprop_get H dec d id n).
    Proof. unfold f_vprop_get. destruct (get_may d CFVP (vprop_key H id n)) as [-> |(p & ->)]; [now left|right; auto]. Qed.
    Lemma eprop_get_may e n : may (f_eprop_get H dec fe d e n) (eprop_get H dec d e n).
    Proof. unfold f_eprop_get. destruct (get_may d CFEP (eprop_key H e n)) as [-> |(p & ->)]; [now left|right; auto]. Qed.

    Lemma vertices_from_may id : mayi (f_vertices_from H fe d id) (vertices_from H d id).
    Proof. apply decode_may, from_may. Qed.
    Lemma edges_for_root_may c id : mayi (f_edges_for_root H fe d c id) (edges_for_root H (cf_of d c) id).
    Proof. apply decode_may, scan_may. Qed.
    Lemma edges_from_may c e : mayi (f_edges_from H fe d c e) (edges_from H (cf_of d c) e).
    Proof. apply decode_may, from_may. Qed.
    Lemma edges_all_may : mayi (f_edges_all fe d) (edges_all d).
    Proof. apply decode_may, (start_may d CFE). Qed.
    Lemma vprops_may id : mayi (f_vprops_for_owner H dec fe d id) (vprops_for_owner H dec d id).
    Proof. apply decode_may, (scan_may d CFVP). Qed.
    Lemma eprops_may e : mayi (f_eprops_for_owner H dec fe d e) (eprops_for_owner H dec d e).
    Proof. apply decode_may, (scan_may d CFEP). Qed.
    Lemma vvalues_name_may n : mayi (f_vvalues_for_name H fe d n) (vvalues_for_name H d n).
    Proof. apply decode_may, (scan_may d CFVV). Qed.
    Lemma vvalues_value_may n v : mayi (f_vvalues_for_value H fe d n v) (vvalues_for_value H d n v).
    Proof. apply decode_may, (scan_may d CFVV). Qed.
    Lemma evalues_name_may n : mayi (f_evalues_for_name H fe d n) (evalues_for_name H d n).
    Proof. apply decode_may, (scan_may d CFEV). Qed.
    Lemma evalues_value_may n v : mayi (f_evalues_for_value H fe d n v) (evalues_for_value H d n v).
    Proof. apply decode_may, (scan_may d CFEV). Qed.

    Lemma vprop_delete_may ix id n : may (f_vprop_delete H dec fe d ix id n) (vprop_delete H dec d ix id n).
    Proof.
      unfold f_vprop_delete, vprop_delete. apply may_bind; [|intros; apply may_refl].
      destruct (mem n ix); [|apply may_refl]. apply may_bind; [apply vprop_get_may|intros; apply may_refl].
    Qed.
    Lemma vprop_set_may ix id n v : may (f_vprop_set H enc dec fe d ix id n v) (vprop_set H enc dec d ix id n v).
    Proof.
      unfold f_vprop_set, vprop_set. apply may_bind; [|intros; apply may_refl].
      destruct (mem n ix); [apply vprop_delete_may|apply may_refl].
    Qed.
    Lemma eprop_delete_may ix e n : may (f_eprop_delete H dec fe d ix e n) (eprop_delete H dec d ix e n).
    Proof.
      unfold f_eprop_delete, eprop_delete. apply may_bind; [|intros; apply may_refl].
      destruct (mem n ix); [|apply may_refl]. apply may_bind; [apply eprop_get_may|intros; apply may_refl].
    Qed.
    Lemma eprop_set_may ix e n v : may (f_eprop_set H enc dec fe d ix e n v) (eprop_set H enc dec d ix e n v).
    Proof.
      unfold f_eprop_set, eprop_set. apply may_bind; [|intros; apply may_refl].
      destruct (mem n ix); [apply eprop_delete_may|apply may_refl].
    Qed.
    Lemma edge_set_may e : may (f_edge_set H fe d e) (Ok (edge_set H d e)).
    Proof. unfold f_edge_set. destruct (edge_contains_may e) as [-> |(p & ->)]; [now left|right; auto]. Qed.
    Lemma edge_delete_may ix e : may (f_edge_delete H dec fe d ix e) (edge_delete H dec d ix e).
    Proof.
      unfold f_edge_delete, edge_delete. apply may_bind; [|intros; apply may_refl].
      apply mayi_for_each; [apply eprops_may|]. intros x. apply eprop_delete_may.
    Qed.
    Lemma vertex_delete_may ix id : may (f_vertex_delete H dec fe d ix id) (vertex_delete H dec d ix id).
    Proof.
      unfold f_vertex_delete, vertex_delete.
      apply may_bind; [apply mayi_for_each; [apply vprops_may|intros; apply vprop_delete_may]|]. intros b1.
      apply may_bind; [apply mayi_for_each; [apply (edges_for_root_may CFE)|]|intros b2].
      { intros e. unfold dassert. destruct (eqb (eout e) id); [apply edge_delete_may|apply may_refl]. }
      apply may_bind; [apply mayi_for_each; [apply (edges_for_root_may CFR)|]|intros b3; apply may_refl].
      intros e. unfold dassert. destruct (eqb (eout e) id); [apply edge_delete_may|apply may_refl].
    Qed.
  End Db.

  Section State.
    Variable s : rstate.
    Notation env := (fe_env fe).

    Lemma existing_may l l' : mayi l l' -> mayi (f_existing_ids H fe s l) (existing_ids H s l').
    Proof.
      intros M. replace (existing_ids H s l') with (filter_map (fun r => match r with
        | Ok id => if vertex_exists H (r_db s) id then Some (Ok id) else None | Err e => Some (Err e) | Panic => Some Panic end) l').
      - apply mayi_filter_map; [exact M| |reflexivity]. intros [id|e|]; [|now left..].
        destruct (vertex_exists_may (r_db s) id) as [-> |(p & ->)]; [|right; auto]. left. now destruct (vertex_exists _ _ _).
      - unfold existing_ids. clear M. induction l' as [|r l' IH]; [reflexivity|]. cbn [filter_map filter]. rewrite IH.
        destruct r as [id|e|]; [|reflexivity..]. now destruct (vertex_exists _ _ _).
    Qed.

    Lemma lenN_broken A (o : option nat) (l : list A) : o = None \/ o <> None.
    Proof. destruct o; [right; discriminate|now left]. Qed.

    Lemma count_may c k A (f : kv -> outcome A) l :
      (lenN (decode f (broken (fe_scan fe c k) l)) = lenN (map f l)) \/ P.
    Proof.
      destruct (fe_scan fe c k) eqn:E.
      - right. exists c, k. right. now rewrite E.
      - left. cbn [broken]. unfold decode. rewrite map_map. reflexivity.
    Qed.

    Lemma ops_reads : reads_may P (f_ops H enc dec fe) (rdb_ops H enc dec env) s.
    Proof.
      constructor; cbn [f_ops rdb_ops t_vertex_count t_all_vertices t_range_vertices t_specific_vertices t_vertex_ids_with_property
        t_vertex_ids_with_property_value t_edge_count t_all_edges t_range_edges t_range_reversed_edges t_specific_edges
        t_edges_with_property t_edges_with_property_value t_vertex_property t_all_vertex_properties t_edge_property t_all_edge_properties].
      - eexists _, _. split; [reflexivity|]. split; [reflexivity|]. apply count_may.
      - eexists _, _. split; [reflexivity|]. split; [reflexivity|]. apply count_may.
      - eexists _, _. split; [reflexivity|]. split; [reflexivity|]. apply vertices_from_may.
      - intros i. eexists _, _. split; [reflexivity|]. split; [reflexivity|]. apply vertices_from_may.
      - intros i. eexists _, _. split; [reflexivity|]. split; [reflexivity|]. apply mayi_each. intros id.
        destruct (vertex_get_may (r_db s) id) as [-> |(p & ->)]; [now left|right; auto].
      - intros n. unfold f_vertex_ids_with_property, rdb_vertex_ids_with_property. destruct (mem n (r_indexed s)); [|apply may_refl].
        apply mayi_collect, existing_may, vvalues_name_may.
      - intros n v. unfold f_vertex_ids_with_property_value, rdb_vertex_ids_with_property_value. destruct (mem n (r_indexed s)); [|apply may_refl].
        apply mayi_collect, existing_may, vvalues_value_may.
      - eexists _, _. split; [reflexivity|]. split; [reflexivity|]. apply edges_all_may.
      - intros i. eexists _, _. split; [reflexivity|]. split; [reflexivity|]. apply (edges_from_may (r_db s) CFE).
      - intros i. eexists _, _. split; [reflexivity|]. split; [reflexivity|]. apply (edges_from_may (r_db s) CFR).
      - intros i. eexists _, _. split; [reflexivity|]. split; [reflexivity|].
        replace (map Ok (filter (edge_contains H (r_db s)) i)) with
          (filter_map (fun e => if edge_contains H (r_db s) e then Some (@Ok edge e) else None) i).
        + apply mayi_each. intros e. destruct (edge_contains_may (r_db s) e) as [-> |(p & ->)]; [left|right; auto].
          now destruct (edge_contains _ _ _).
        + induction i as [|e i IH]; [reflexivity|]. cbn [filter_map filter]. rewrite IH. now destruct (edge_contains _ _ _).
      - intros n. unfold f_edges_with_property, rdb_edges_with_property. destruct (mem n (r_indexed s)); [|apply may_refl].
        apply mayi_collect, evalues_name_may.
      - intros n v. unfold f_edges_with_property_value, rdb_edges_with_property_value. destruct (mem n (r_indexed s)); [|apply may_refl].
        apply mayi_collect, evalues_value_may.
      - intros v n. apply vprop_get_may.
      - intros v. apply may_bind; [apply mayi_collect, vprops_may|intros; apply may_refl].
      - intros v n. apply eprop_get_may.
      - intros v. apply may_bind; [apply mayi_collect, eprops_may|intros; apply may_refl].
    Qed.

    (** ** Writing methods *)

    (** The call did what it does without failing reads, or it failed and did
        what it does when its write is refused. *)
    Definition mays {A} (f c r : outcome A * rstate) : Prop := f = c \/ (P /\ fst f = Err EDatastore /\ snd f = snd r).

    Lemma write_built_may (x y : outcome batch) s1 :
      may x y -> mays (write_built env s1 x) (write_built env s1 y) (write_built (refusing env) s1 y).
    Proof.
      intros [-> |(p & ->)]; [now left|]. right. split; [exact p|]. split; [reflexivity|]. cbn [write_built snd].
      destruct y; reflexivity.
    Qed.

    Lemma resw_may A (k : A -> res) f c r : mays f c r -> mays (resw k f) (resw k c) (resw k r).
    Proof.
      intros [-> |(p & E & F)]; [now left|right]. split; [exact p|]. unfold resw. cbn [fst snd]. rewrite E. auto.
    Qed.

    Lemma create_vertex_may v : mays (f_create_vertex H fe s v) (rdb_create_vertex H env s v) (rdb_create_vertex H (refusing env) s v).
    Proof.
      unfold f_create_vertex, rdb_create_vertex. destruct (vertex_exists_may (r_db s) (vid v)) as [-> |(p & ->)].
      - left. now destruct (vertex_exists _ _ _).
      - right. split; [exact p|]. split; [reflexivity|]. now destruct (vertex_exists _ _ _).
    Qed.

    Lemma create_edge_may e : mays (f_create_edge H fe s e) (rdb_create_edge H env s e) (rdb_create_edge H (refusing env) s e).
    Proof.
      assert (X : snd (rdb_create_edge H (refusing env) s e) = s).
      { unfold rdb_create_edge. now destruct (negb (vertex_exists H (r_db s) (eout e)) || negb (vertex_exists H (r_db s) (ein e))). }
      unfold mays. rewrite X. clear X. unfold f_create_edge, rdb_create_edge.
      destruct (vertex_exists_may (r_db s) (eout e)) as [-> |(p & ->)]; [|right; auto].
      cbn [obind]. destruct (vertex_exists H (r_db s) (eout e)); cbn [negb orb]; [|now left].
      destruct (vertex_exists_may (r_db s) (ein e)) as [-> |(p & ->)]; [|right; auto].
      cbn [obind]. destruct (vertex_exists H (r_db s) (ein e)); cbn [negb]; [|now left].
      destruct (edge_set_may (r_db s) e) as [-> |(p & ->)]; [now left|right; auto].
    Qed.

    Lemma delete_may vs :
      mays (f_delete_vertices H dec fe s vs) (rdb_delete_vertices H dec env s vs) (rdb_delete_vertices H dec (refusing env) s vs).
    Proof. apply write_built_may, may_over. intros v. apply vertex_delete_may. Qed.
    Lemma delete_edges_may vs :
      mays (f_delete_edges H dec fe s vs) (rdb_delete_edges H dec env s vs) (rdb_delete_edges H dec (refusing env) s vs).
    Proof.
      apply write_built_may, may_over. intros e. apply may_bind; [apply vertex_get_may|]. intros [t|]; [apply edge_delete_may|apply may_refl].
    Qed.
    Lemma delete_vps_may ps : mays (f_delete_vertex_properties H dec fe s ps) (rdb_delete_vertex_properties H dec env s ps)
      (rdb_delete_vertex_properties H dec (refusing env) s ps).
    Proof. apply write_built_may, may_over. intros p. apply vprop_delete_may. Qed.
    Lemma delete_eps_may ps : mays (f_delete_edge_properties H dec fe s ps) (rdb_delete_edge_properties H dec env s ps)
      (rdb_delete_edge_properties H dec (refusing env) s ps).
    Proof. apply write_built_may, may_over. intros p. apply eprop_delete_may. Qed.
    Lemma set_vps_may ids n v : mays (f_set_vertex_properties H enc dec fe s ids n v) (rdb_set_vertex_properties H enc dec env s ids n v)
      (rdb_set_vertex_properties H enc dec (refusing env) s ids n v).
    Proof. apply write_built_may, may_over. intros p. apply vprop_set_may. Qed.
    Lemma set_eps_may ids n v : mays (f_set_edge_properties H enc dec fe s ids n v) (rdb_set_edge_properties H enc dec env s ids n v)
      (rdb_set_edge_properties H enc dec (refusing env) s ids n v).
    Proof. apply write_built_may, may_over. intros p. apply eprop_set_may. Qed.
    Lemma bulk_may items : mays (f_bulk_insert H enc dec fe s items) (rdb_bulk_insert H enc dec env s items)
      (rdb_bulk_insert H enc dec (refusing env) s items).
    Proof.
      apply write_built_may, may_over. intros [v|e|id n v|e n v]; cbn [f_bulk_item bulk_item_batch].
      - apply may_refl.
      - apply edge_set_may.
      - apply vprop_set_may.
      - apply eprop_set_may.
    Qed.
    Lemma index_may n : mays (f_index_property H dec fe s n) (rdb_index_property H dec env s n)
      (rdb_index_property H dec (refusing env) s n).
    Proof.
      unfold f_index_property, rdb_index_property. destruct (mem n (r_indexed s)); [now left|]. cbv zeta.
      apply write_built_may.
      apply may_bind; [apply mayi_for_each; [apply vertices_from_may|]|intros b1].
      { intros v. apply may_bind; [apply vprop_get_may|intros; apply may_refl]. }
      apply may_bind; [apply mayi_for_each; [apply edges_all_may|]|intros b2; apply may_refl].
      intros e. apply may_bind; [apply eprop_get_may|intros; apply may_refl].
    Qed.

    Lemma write_refused s1 b : write (refusing env) s1 b = (Err EDatastore, s1).
    Proof. reflexivity. Qed.
    Lemma built_refused s1 x : snd (write_built (refusing env) s1 x) = s1.
    Proof. destruct x; reflexivity. Qed.
    Lemma snd_resw A (k : A -> res) (x : outcome A * rstate) : snd (resw k x) = snd x.
    Proof. reflexivity. Qed.

    (** A refused call changes nothing, except that [index_property] has
        already added the name to the set kept in memory. *)
    Lemma refused o : (forall n, o <> OIndexProperty n) -> snd (rdb_step H enc dec s (refusing env, o)) = s.
    Proof.
      intros N. unfold rdb_step. cbn [fst snd].
      destruct o; cbn [exec]; try reflexivity; rewrite ?snd_resw; try apply built_refused.
      - cbn [rdb_ops t_create_vertex]. unfold rdb_create_vertex. now destruct (vertex_exists _ _ _).
      - unfold db_create_vertex_from_type. cbn [rdb_ops t_create_vertex]. unfold rdb_create_vertex. now destruct (vertex_exists _ _ _).
      - cbn [rdb_ops t_create_edge]. unfold rdb_create_edge.
        now destruct (negb (vertex_exists H (r_db s) (eout e)) || negb (vertex_exists H (r_db s) (ein e))).
      - unfold db_delete. destruct (let? out := _ in pop out) as [[[l|l|n|l|l] k]|e|]; try reflexivity; apply built_refused.
      - unfold db_set_properties. destruct (let? out := _ in pop out) as [[[l|l|n|l|l] k]|e|]; try reflexivity; apply built_refused.
      - now destruct (N name).
    Qed.

    Lemma likes_rev l l' : Forall2 (like P) l l' -> Forall2 (like P) (rev l) (rev l').
    Proof. induction 1; [constructor|]. cbn [rev]. apply Forall2_app; [assumption|]. constructor; [assumption|constructor]. Qed.

    Lemma mays_same A (f c r r' : outcome A * rstate) : snd r = snd r' -> mays f c r -> mays f c r'.
    Proof. intros E [-> |(p & X & Y)]; [now left|right]. rewrite Y, E. auto. Qed.

    (** The query of a [delete] or [set_properties]. *)
    Lemma pop_may q : 
      let x := (let? out := query_exec (f_ops H enc dec fe) s q [] in pop out) in
      let y := (let? out := query_exec (rdb_ops H enc dec env) s q [] in pop out) in
      match x with
      | Ok (v, _) => exists v' k, y = Ok (v', k) /\ like P v v'
      | Err e => y = Err e \/ (P /\ e = EDatastore)
      | Panic => y = Panic
      end.
    Proof.
      pose proof (query_may ops_reads (T := P) q (fun _ p => p) (Forall2_nil _)) as M. cbv zeta. unfold mayq in M.
      destruct (query_exec (f_ops H enc dec fe) s q []) as [l|e|].
      - destruct M as (l' & -> & L). cbn [obind]. inversion L; subst; cbn [pop]; [reflexivity|]. eauto.
      - destruct M as [-> | M]; cbn [obind]; auto.
      - rewrite M. reflexivity.
    Qed.

    Theorem call_may o :
      let f := f_step H enc dec s (fe, o) in
      let c := rdb_step H enc dec s (env, o) in
      let r := rdb_step H enc dec s (refusing env, o) in
      match o with
      | OGet q => snd f = snd c /\ (P /\ fst f = Err EDatastore \/ fst f = fst c \/
          (P /\ tallies q = true /\ exists l l', fst f = Ok (ROut l) /\ fst c = Ok (ROut l') /\ Forall2 (like P) l l'))
      | _ => mays f c r
      end.
    Proof.
      unfold f_step, rdb_step. cbn [fst snd]. destruct o; cbn [exec]; cbv zeta.
      - apply resw_may, create_vertex_may.
      - apply resw_may. unfold db_create_vertex_from_type. cbn [f_ops rdb_ops t_create_vertex].
        destruct (create_vertex_may (Vertex id t)) as [-> |(p & E & F)]; [now left|]. right. split; [exact p|].
        destruct (f_create_vertex H fe s (Vertex id t)) as [x y]. cbn [fst] in E. subst x. cbn [sbind fst snd]. split; [reflexivity|].
        cbn [snd] in F. rewrite F. unfold rdb_create_vertex. now destruct (vertex_exists _ _ _).
      - apply resw_may, create_edge_may.
      - split; [reflexivity|]. cbn [fst]. unfold db_get.
        destruct (tallies q) eqn:TQ.
        + pose proof (query_may ops_reads (T := P) q (fun _ p => p) (Forall2_nil _)) as M. unfold mayq in M.
          destruct (query_exec (f_ops H enc dec fe) s q []) as [l|e|].
          * destruct M as (l' & E & L). rewrite E. cbn [omapo obind].
            assert (X : l = l' \/ P).
            { clear E TQ. induction L as [|a b l l' [-> |(p & _)] L IH]; [now left| |now right]. destruct IH as [-> |p]; auto. }
            destruct X as [-> |p]; [right; left; reflexivity|]. right. right. split; [exact p|]. split; [reflexivity|].
            eexists _, _. split; [reflexivity|]. split; [reflexivity|]. apply likes_rev. exact L.
          * destruct M as [-> |(p & ->)]; [right; left; reflexivity|left; auto].
          * rewrite M. right. left. reflexivity.
        + assert (M : mayq P False (query_exec (f_ops H enc dec fe) s q []) (query_exec (rdb_ops H enc dec env) s q [])).
          { apply (query_may ops_reads); [rewrite TQ; discriminate|constructor]. }
          unfold mayq in M. destruct (query_exec (f_ops H enc dec fe) s q []) as [l|e|].
          * destruct M as (l' & E & L). right. left. rewrite E. do 2 f_equal. f_equal.
            clear E. induction L as [|a b l l' [-> |([] & _)] L IH]; [reflexivity|]. now rewrite IH.
          * destruct M as [-> |(p & ->)]; [right; left; reflexivity|left; auto].
          * rewrite M. right. left. reflexivity.
      - apply (mays_same (r := (Ok RUnit, s))); [symmetry; apply (@refused (ODelete q)); discriminate|].
        pose proof (pop_may q) as M. cbv zeta in M. unfold db_delete.
        destruct (let? out := query_exec (f_ops H enc dec fe) s q [] in pop out) as [[v k]|e|].
        + destruct M as (v' & k' & -> & [-> |(p & n & m & -> & ->)]); [|now left].
          destruct v' as [l|l|n|l|l]; cbn [f_ops rdb_ops t_delete_vertices t_delete_edges t_delete_vertex_properties t_delete_edge_properties];
            [| |now left| |]; (eapply mays_same; [|apply resw_may]).
          2:{ apply delete_may. }
          { cbn. apply built_refused. }
          2:{ apply delete_edges_may. }
          { cbn. apply built_refused. }
          2:{ apply delete_vps_may. }
          { cbn. apply built_refused. }
          2:{ apply delete_eps_may. }
          { cbn. apply built_refused. }
        + destruct M as [-> |(p & ->)]; [now left|right; auto].
        + rewrite M. now left.
      - apply (mays_same (r := (Ok RUnit, s))); [symmetry; apply (@refused (OSetProperties q name value)); discriminate|].
        pose proof (pop_may q) as M. cbv zeta in M. unfold db_set_properties.
        destruct (let? out := query_exec (f_ops H enc dec fe) s q [] in pop out) as [[v k]|e|].
        + destruct M as (v' & k' & -> & [-> |(p & n & m & -> & ->)]); [|now left].
          destruct v' as [l|l|n|l|l]; [| |now left..]; (eapply mays_same; [|apply resw_may]).
          2:{ apply set_vps_may. }
          { cbn. apply built_refused. }
          2:{ apply set_eps_may. }
          { cbn. apply built_refused. }
        + destruct M as [-> |(p & ->)]; [now left|right; auto].
        + rewrite M. now left.
      - apply resw_may, bulk_may.
      - apply resw_may, index_may.
      - now left.
      - apply resw_may, delete_may.
      - apply resw_may, delete_edges_may.
      - apply resw_may, delete_vps_may.
      - apply resw_may, delete_eps_may.
      - apply resw_may, set_vps_may.
      - apply resw_may, set_eps_may.
    Qed.
  End State.

  Lemma open_may d : may (f_open fe d) (rdb_open d).
  Proof. unfold f_open, rdb_open. destruct (get_may d CFM meta_key) as [-> |(p & ->)]; [now left|right; auto]. Qed.
End Step.
