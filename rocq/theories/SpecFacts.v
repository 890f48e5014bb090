(** * Facts about the abstract graph. *)
From Verif Require Import Base OMap Json Types Db Spec QueryFacts.

Set Implicit Arguments.

#[global] Arguments get : simpl never.
#[global] Arguments set : simpl never.
#[global] Arguments del : simpl never.
#[global] Arguments filt : simpl never.
#[global] Arguments mem : simpl never.
#[global] Arguments add : simpl never.
#[global] Arguments from : simpl never.
#[global] Arguments keys : simpl never.
#[global] Arguments dom : simpl never.
#[global] Arguments cmp : simpl never.
#[global] Arguments eqb : simpl never.
#[global] Arguments ltb : simpl never.
#[global] Arguments inb : simpl never.

(** ** Maps *)

Lemma mem_filt {K V} {O : Ord K} (f : K -> bool) (t : omap K V) k :
  mem k (filt (fun kv => f (fst kv)) t) = f k && mem k t.
Proof.
  unfold mem. rewrite get_filt. cbn [fst]. destruct (get k t); [destruct (f k); reflexivity|].
  now rewrite andb_false_r.
Qed.
Lemma get_filt_key {K V} {O : Ord K} (f : K -> bool) (t : omap K V) k :
  get k (filt (fun kv => f (fst kv)) t) = if f k then get k t else None.
Proof. rewrite get_filt. cbn [fst]. destruct (get k t); now destruct (f k). Qed.

Lemma filt_true {K V} {O : Ord K} (f : K * V -> bool) (t : omap K V) :
  (forall k v, get k t = Some v -> f (k, v) = true) -> filt f t = t.
Proof.
  intros H. apply omap_ext. intros k. rewrite get_filt. destruct (get k t) as [v|] eqn:E; [|reflexivity].
  now rewrite (H k v E).
Qed.

(** Filtering by a growing list of keys. *)
Lemma filt_inb_cons {K V} {O : Ord K} (p : K) ps (t : omap K V) :
  filt (fun kv => negb (inb (fst kv) (p :: ps))) t = filt (fun kv => negb (inb (fst kv) ps)) (del p t).
Proof.
  apply omap_ext. intros k. rewrite !get_filt, get_del. cbn [fst]. unfold inb at 1. cbn [existsb].
  fold (inb k ps). destruct (get k t) as [v|]; [|now destruct (eqb k p)].
  destruct (eqb k p); cbn; reflexivity.
Qed.

Lemma inb_cons {A} {O : Ord A} (x a : A) l : inb x (a :: l) = eqb x a || inb x l.
Proof. reflexivity. Qed.
Lemma inb_nil {A} {O : Ord A} (x : A) : inb x [] = false.
Proof. reflexivity. Qed.

Lemma eqb_pair {A B} {OA : Ord A} {OB : Ord B} (a a' : A) (b b' : B) :
  eqb (a, b) (a', b') = eqb a a' && eqb b b'.
Proof.
  destruct (eqb (a, b) (a', b')) eqn:E.
  - apply eqb_eq in E. inversion E. now rewrite !eqb_refl.
  - symmetry. apply andb_false_iff. apply eqb_neq in E.
    destruct (eqb a a') eqn:Ea; [right|now left]. apply eqb_eq in Ea. subst. apply eqb_neq. congruence.
Qed.

Lemma lt_pair {A B} {OA : Ord A} {OB : Ord B} (a a' : A) (b b' : B) :
  lt (a, b) (a', b') <-> lt a a' \/ a = a' /\ lt b b'.
Proof.
  change (lt (a, b) (a', b')) with (pair_cmp (a, b) (a', b') = Lt). unfold pair_cmp, lt. cbn [fst snd].
  destruct (cmp a a') eqn:E.
  - apply cmp_eq in E. subst. split; [auto|]. intros [H|[_ H]]; [discriminate|assumption].
  - split; auto.
  - split; [discriminate|]. intros [H|[H _]]; [discriminate|]. subst. rewrite cmp_refl in E. discriminate.
Qed.

(** The keys of one owner, as read by range scans. *)
Lemma owner_range {A V} {O : Ord A} (o : A) (t : omap (A * ident) V) kv :
  In kv (take_while (fun kv => eqb (fst (fst kv)) o) (from (o, empty_ident) t)) <->
  fst (fst kv) = o /\ get (fst kv) t = Some (snd kv).
Proof.
  assert (forall n, ~ lt (o, n) (o, empty_ident)) as Lo.
  { intros n H. apply lt_pair in H as [H|[_ H]]; [now apply lt_irrefl in H|].
    now apply (to_min lex_order) in H. }
  rewrite (take_while_is_filter (R := klt (V := V))).
  - rewrite filter_In, eqb_eq. destruct kv as [[o' n] v]; cbn [fst snd]. rewrite from_In. split.
    + tauto.
    + intros [-> H]. auto.
  - apply from_sorted.
  - intros [[o1 n1] v1] [[o2 n2] v2] H1 H2 Hlt. cbn [fst]. rewrite !eqb_eq. intros ->.
    apply from_In in H1 as [_ H1]. unfold klt in Hlt. cbn [fst] in Hlt. apply lt_pair in Hlt as [Hlt|[Hlt _]]; [|assumption].
    exfalso. apply H1, lt_pair. now left.
Qed.

(** Setting one property of many owners. *)
Lemma get_fold_set {A} {O : Ord A} (ids : list A) (n : ident) (v : json) : forall (t : omap (A * ident) json) k,
  get k (fold_left (fun ps id => set (id, n) v ps) ids t) =
  if inb (fst k) ids && eqb (snd k) n then Some v else get k t.
Proof.
  induction ids as [|a ids IH]; intros t k; cbn [fold_left]; [reflexivity|].
  rewrite IH, inb_cons, get_set. destruct k as [o m]. rewrite eqb_pair. cbn [fst snd].
  destruct (inb o ids), (eqb o a), (eqb m n); reflexivity.
Qed.

(** ** Deletions compose *)

Lemma negb_negb_andb a b : negb (a || b) = negb a && negb b.
Proof. apply negb_orb. Qed.

Lemma g_delete_edges_nil g : g_delete_edges g [] = g.
Proof.
  unfold g_delete_edges. rewrite !filt_true by (intros; reflexivity). now destruct g.
Qed.
Lemma g_delete_edges_cons g e es :
  g_delete_edges g (e :: es) = g_delete_edges (g_delete_edges g [e]) es.
Proof.
  unfold g_delete_edges; cbn [gv ge gvp gep gix]. f_equal; apply omap_ext; intros k; rewrite !get_filt; cbn [fst];
    match goal with |- context [get k ?t] => destruct (get k t) as [v|]; [|reflexivity] end;
    rewrite !inb_cons, inb_nil, orb_false_r, negb_orb;
    match goal with |- context [eqb ?a ?b] => destruct (eqb a b) end; reflexivity.
Qed.

Lemma incident_cons i ids e : incident (i :: ids) e = incident [i] e || incident ids e.
Proof.
  unfold incident. rewrite !inb_cons, !inb_nil.
  destruct (eqb (eout e) i), (eqb (ein e) i), (inb (eout e) ids), (inb (ein e) ids); reflexivity.
Qed.

Lemma g_delete_vertices_nil g : g_delete_vertices g [] = g.
Proof.
  unfold g_delete_vertices. rewrite !filt_true by (intros; reflexivity). now destruct g.
Qed.
Lemma g_delete_vertices_cons g i ids :
  g_delete_vertices g (i :: ids) = g_delete_vertices (g_delete_vertices g [i]) ids.
Proof.
  unfold g_delete_vertices; cbn [gv ge gvp gep gix]. f_equal; apply omap_ext; intros k; rewrite !get_filt; cbn [fst].
  - destruct (get k (gv g)); [|reflexivity]. rewrite !inb_cons, inb_nil, orb_false_r, negb_orb.
    destruct (eqb k i); reflexivity.
  - destruct (get k (ge g)); [|reflexivity]. rewrite (incident_cons i ids), negb_orb.
    destruct (incident [i] k); reflexivity.
  - destruct (get k (gvp g)); [|reflexivity]. rewrite !inb_cons, inb_nil, orb_false_r, negb_orb.
    destruct (eqb (fst k) i); reflexivity.
  - destruct (get k (gep g)); [|reflexivity].
    rewrite (mem_filt (fun e => negb (incident [i] e))), (incident_cons i ids).
    destruct (incident [i] (fst k)), (incident ids (fst k)), (mem (fst k) (ge g)); reflexivity.
Qed.

(** ** Any change an API call can make *)

Inductive change (g : graph) : graph -> Prop :=
| ch_none : change g g
| ch_create_vertex v : change g (g_create_vertex g v)
| ch_create_edge e : change g (g_create_edge g e)
| ch_delete_vertices ids : change g (g_delete_vertices g ids)
| ch_delete_edges es : change g (g_delete_edges g es)
| ch_delete_vprops ps : change g (g_delete_vertex_properties g ps)
| ch_delete_eprops ps : change g (g_delete_edge_properties g ps)
| ch_set_vprops ids n v : change g (g_set_vertex_properties g ids n v)
| ch_set_eprops es n v : change g (g_set_edge_properties g es n v)
| ch_bulk items : change g (g_bulk_insert g items)
| ch_index n : change g (g_index_property g n).

(** Edges have both endpoints. *)
Definition endpoints_exist (g : graph) : Prop := forall e, is_edge g e ->
  mem (eout e) (gv g) = true /\ mem (ein e) (gv g) = true.

Lemma create_vertex_mem g v id : mem id (gv (g_create_vertex g v)) = eqb id (vid v) || mem id (gv g).
Proof.
  unfold g_create_vertex. destruct (mem (vid v) (gv g)) eqn:E; cbn [gv].
  - destruct (eqb id (vid v)) eqn:F; [|reflexivity]. apply eqb_eq in F. now subst.
  - apply mem_set.
Qed.

Lemma create_edge_mem g e f :
  mem f (ge (g_create_edge g e)) = (eqb f e && (mem (eout e) (gv g) && mem (ein e) (gv g))) || mem f (ge g).
Proof.
  unfold g_create_edge. destruct (mem (eout e) (gv g) && mem (ein e) (gv g)); cbn [ge].
  - now rewrite mem_add, andb_true_r.
  - now rewrite andb_false_r.
Qed.

Lemma endpoints_create_vertex g v : endpoints_exist g -> endpoints_exist (g_create_vertex g v).
Proof.
  intros H e He. rewrite !create_vertex_mem.
  assert (is_edge g e) as He' by (unfold is_edge, g_create_vertex in *; destruct (mem (vid v) (gv g)); exact He).
  destruct (H e He') as [-> ->]. now rewrite !orb_true_r.
Qed.
Lemma endpoints_create_edge g e : endpoints_exist g -> endpoints_exist (g_create_edge g e).
Proof.
  intros H f Hf. unfold is_edge in Hf. rewrite create_edge_mem in Hf.
  assert (gv (g_create_edge g e) = gv g) as -> by (unfold g_create_edge; now destruct (mem (eout e) (gv g) && mem (ein e) (gv g))).
  apply orb_true_iff in Hf as [Hf|Hf]; [|now apply H].
  apply andb_true_iff in Hf as [Hf Hv]. apply eqb_eq in Hf. subst. now apply andb_true_iff in Hv.
Qed.

Lemma endpoints_bulk items : forall g, endpoints_exist g -> endpoints_exist (g_bulk_insert g items).
Proof.
  unfold g_bulk_insert. induction items as [|it items IH]; intros g H; cbn [fold_left]; [assumption|].
  apply IH. destruct it; cbn [g_bulk_item].
  - now apply endpoints_create_vertex.
  - now apply endpoints_create_edge.
  - exact H.
  - exact H.
Qed.

Lemma endpoints_change g g' : change g g' -> endpoints_exist g -> endpoints_exist g'.
Proof.
  intros [] H; try exact H.
  - now apply endpoints_create_vertex.
  - now apply endpoints_create_edge.
  - intros e He. unfold is_edge, g_delete_vertices in *. cbn [ge gv] in *.
    rewrite (mem_filt (fun e => negb (incident ids e))) in He. apply andb_true_iff in He as [Hi He].
    rewrite !(mem_filt (fun i => negb (inb i ids))). destruct (H e He) as [-> ->].
    unfold incident in Hi. rewrite negb_orb in Hi. apply andb_true_iff in Hi as [-> ->]. auto.
  - intros e He. unfold is_edge, g_delete_edges in *. cbn [ge gv] in *.
    rewrite (mem_filt (fun e => negb (inb e es))) in He. apply andb_true_iff in He as [_ He]. now apply H.
  - now apply endpoints_bulk.
Qed.

(** ** Every property belongs to an existing element *)

Record no_orphans (g : graph) : Prop := {
  no_vorphan : forall id n x, get (id, n) (gvp g) = Some x -> mem id (gv g) = true;
  no_eorphan : forall e n x, get (e, n) (gep g) = Some x -> mem e (ge g) = true }.

(** Calls that only write properties of elements that exist (or that the call
    itself creates earlier). *)
Definition tidy_item (g : graph) (it : bulk_item) : Prop :=
  match it with
  | BVProp id _ _ => mem id (gv g) = true
  | BEProp e _ _ => mem e (ge g) = true
  | _ => True
  end.
Fixpoint tidy_items (g : graph) (items : list bulk_item) : Prop :=
  match items with
  | [] => True
  | it :: r => tidy_item g it /\ tidy_items (g_bulk_item g it) r
  end.
Definition tidy_op (g : graph) (o : op) : Prop :=
  match o with
  | OBulkInsert items => tidy_items g items
  | TSetVertexProperties ids _ _ => forall id, In id ids -> mem id (gv g) = true
  | TSetEdgeProperties es _ _ => forall e, In e es -> mem e (ge g) = true
  | _ => True
  end.

Lemma no_orphans_empty : no_orphans g_empty.
Proof. split; intros *; cbn; rewrite get_empty; discriminate. Qed.

Lemma no_orphans_create_vertex g v : no_orphans g -> no_orphans (g_create_vertex g v).
Proof.
  intros [Hv He]. split.
  - intros id n x H. rewrite create_vertex_mem. apply orb_true_iff. right.
    unfold g_create_vertex in H. destruct (mem (vid v) (gv g)); eapply Hv; eauto.
  - intros e n x H. unfold g_create_vertex in *. destruct (mem (vid v) (gv g)); eapply He; eauto.
Qed.
Lemma no_orphans_create_edge g e : no_orphans g -> no_orphans (g_create_edge g e).
Proof.
  intros [Hv He]. split.
  - intros id n x H. unfold g_create_edge in *. destruct (mem (eout e) (gv g) && mem (ein e) (gv g)); eapply Hv; eauto.
  - intros f n x H. rewrite create_edge_mem. apply orb_true_iff. right.
    unfold g_create_edge in H. destruct (mem (eout e) (gv g) && mem (ein e) (gv g)); eapply He; eauto.
Qed.
Lemma no_orphans_set_vprops g ids n v : (forall id, In id ids -> mem id (gv g) = true) ->
  no_orphans g -> no_orphans (g_set_vertex_properties g ids n v).
Proof.
  intros Hin [Hv He]. split; cbn; [|exact He].
  intros id m x. rewrite get_fold_set. cbn [fst snd]. destruct (inb id ids && eqb m n) eqn:E; [|apply Hv].
  intros _. apply andb_true_iff in E as [E _]. apply inb_In in E. auto.
Qed.
Lemma no_orphans_set_eprops g es n v : (forall e, In e es -> mem e (ge g) = true) ->
  no_orphans g -> no_orphans (g_set_edge_properties g es n v).
Proof.
  intros Hin [Hv He]. split; cbn; [exact Hv|].
  intros id m x. rewrite get_fold_set. cbn [fst snd]. destruct (inb id es && eqb m n) eqn:E; [|apply He].
  intros _. apply andb_true_iff in E as [E _]. apply inb_In in E. auto.
Qed.
Lemma no_orphans_item g it : tidy_item g it -> no_orphans g -> no_orphans (g_bulk_item g it).
Proof.
  destruct it; cbn; intros Ht.
  - apply no_orphans_create_vertex.
  - apply no_orphans_create_edge.
  - apply no_orphans_set_vprops. intros i [<-|[]]. assumption.
  - apply no_orphans_set_eprops. intros i [<-|[]]. assumption.
Qed.
Lemma no_orphans_bulk items : forall g, tidy_items g items -> no_orphans g -> no_orphans (g_bulk_insert g items).
Proof.
  unfold g_bulk_insert. induction items as [|it items IH]; intros g; cbn; [auto|].
  intros [H1 H2] H. apply IH; auto. now apply no_orphans_item.
Qed.
Lemma no_orphans_delete_vertices g ids : no_orphans g -> no_orphans (g_delete_vertices g ids).
Proof.
  intros [Hv He]. split; cbn.
  - intros id n x. rewrite (get_filt_key (fun k => negb (inb (fst k) ids))), (mem_filt (fun k => negb (inb k ids))).
    cbn [fst]. destruct (negb (inb id ids)); [|discriminate]. cbn. apply Hv.
  - intros e n x. rewrite (get_filt_key (fun k => negb (incident ids (fst k) && mem (fst k) (ge g)))),
      (mem_filt (fun k => negb (incident ids k))). cbn [fst].
    destruct (negb (incident ids e && mem e (ge g))) eqn:E; [|discriminate]. intros H. apply He in H.
    rewrite H, andb_true_r in *. assumption.
Qed.
Lemma no_orphans_delete_edges g es : no_orphans g -> no_orphans (g_delete_edges g es).
Proof.
  intros [Hv He]. split; cbn; [exact Hv|].
  intros e n x. rewrite (get_filt_key (fun k => negb (inb (fst k) es))), (mem_filt (fun k => negb (inb k es))).
  cbn [fst]. destruct (negb (inb e es)); [|discriminate]. cbn. apply He.
Qed.
Lemma no_orphans_delete_vprops g ps : no_orphans g -> no_orphans (g_delete_vertex_properties g ps).
Proof.
  intros [Hv He]. split; cbn; [|exact He].
  intros id n x. rewrite (get_filt_key (fun k => negb (inb k ps))). destruct (negb _); [apply Hv|discriminate].
Qed.
Lemma no_orphans_delete_eprops g ps : no_orphans g -> no_orphans (g_delete_edge_properties g ps).
Proof.
  intros [Hv He]. split; cbn; [exact Hv|].
  intros id n x. rewrite (get_filt_key (fun k => negb (inb k ps))). destruct (negb _); [apply He|discriminate].
Qed.

Lemma no_orphans_step tlt vmatch g o r g' :
  tidy_op g o -> spec_step tlt vmatch g o r g' -> no_orphans g -> no_orphans g'.
Proof.
  intros T S H. destruct S; auto using no_orphans_create_vertex, no_orphans_create_edge, no_orphans_delete_vertices,
    no_orphans_delete_edges, no_orphans_delete_vprops, no_orphans_delete_eprops, no_orphans_bulk,
    no_orphans_set_vprops, no_orphans_set_eprops.
  - apply no_orphans_set_vprops; auto. apply evals_exists in H0. cbn in H0. rewrite Forall_forall in H0.
    intros id Hid. apply in_map_iff in Hid as (v & <- & Hv). apply H0 in Hv. unfold is_vertex in Hv.
    apply mem_get. eauto.
  - apply no_orphans_set_eprops; auto. apply evals_exists in H0. cbn in H0. rewrite Forall_forall in H0.
    intros e He. now apply H0 in He.
  - destruct H as [Hv He]. split; assumption.
Qed.

Lemma spec_step_change tlt vmatch g o r g' : spec_step tlt vmatch g o r g' -> change g g'.
Proof. intros []; constructor. Qed.
