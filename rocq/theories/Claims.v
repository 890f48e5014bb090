(** * What updates do, pointwise.

    The small specification used by the property theorems: for each update,
    exactly which vertices, edges, properties and indexed names the new graph
    has.  Nothing here mentions a backend. *)
From Verif Require Import Base OMap Json Types Util Db Spec QueryFacts SpecFacts QueryTrust MemFacts RdbSpec Stages.

Set Implicit Arguments.

(** ** Parts of the graph that stay the same *)
Definition same_vertices (g g' : graph) : Prop := forall id, get id (gv g') = get id (gv g).
Definition same_edges (g g' : graph) : Prop := forall e, is_edge g' e <-> is_edge g e.
Definition same_vprops (g g' : graph) : Prop := forall id n, get (id, n) (gvp g') = get (id, n) (gvp g).
Definition same_eprops (g g' : graph) : Prop := forall e n, get (e, n) (gep g') = get (e, n) (gep g).
Definition same_indexed (g g' : graph) : Prop := forall n, indexed g' n <-> indexed g n.

(** ** Updates *)
Record vertex_created (v : vertex) (g g' : graph) : Prop := {
  vc_new : get (vid v) (gv g) = None;
  vc_vertices : forall id, get id (gv g') = if eqb id (vid v) then Some (vt v) else get id (gv g);
  vc_edges : same_edges g g';
  vc_vprops : same_vprops g g';
  vc_eprops : same_eprops g g';
  vc_indexed : same_indexed g g' }.

Record edge_created (e : edge) (g g' : graph) : Prop := {
  ec_out : exists t, get (eout e) (gv g) = Some t;
  ec_in : exists t, get (ein e) (gv g) = Some t;
  ec_vertices : same_vertices g g';
  ec_edges : forall f, is_edge g' f <-> f = e \/ is_edge g f;
  ec_vprops : same_vprops g g';
  ec_eprops : same_eprops g g';
  ec_indexed : same_indexed g g' }.

(** Deleting vertices, with everything attached to them. *)
Record vertices_deleted (ids : list uuid) (g g' : graph) : Prop := {
  vd_vertices : forall id t, get id (gv g') = Some t <-> get id (gv g) = Some t /\ ~ In id ids;
  vd_edges : forall e, is_edge g' e <-> is_edge g e /\ ~ In (eout e) ids /\ ~ In (ein e) ids;
  vd_vprops : forall id n x, get (id, n) (gvp g') = Some x <-> get (id, n) (gvp g) = Some x /\ ~ In id ids;
  vd_eprops : forall e n x, get (e, n) (gep g') = Some x <->
    get (e, n) (gep g) = Some x /\ ~ (is_edge g e /\ (In (eout e) ids \/ In (ein e) ids));
  vd_indexed : same_indexed g g' }.

Record edges_deleted (es : list edge) (g g' : graph) : Prop := {
  ed_vertices : same_vertices g g';
  ed_edges : forall e, is_edge g' e <-> is_edge g e /\ ~ In e es;
  ed_vprops : same_vprops g g';
  ed_eprops : forall e n x, get (e, n) (gep g') = Some x <-> get (e, n) (gep g) = Some x /\ ~ In e es;
  ed_indexed : same_indexed g g' }.

Record vprops_deleted (ps : list (uuid * ident)) (g g' : graph) : Prop := {
  vpd_vertices : same_vertices g g';
  vpd_edges : same_edges g g';
  vpd_vprops : forall id n x, get (id, n) (gvp g') = Some x <-> get (id, n) (gvp g) = Some x /\ ~ In (id, n) ps;
  vpd_eprops : same_eprops g g';
  vpd_indexed : same_indexed g g' }.

Record eprops_deleted (ps : list (edge * ident)) (g g' : graph) : Prop := {
  epd_vertices : same_vertices g g';
  epd_edges : same_edges g g';
  epd_vprops : same_vprops g g';
  epd_eprops : forall e n x, get (e, n) (gep g') = Some x <-> get (e, n) (gep g) = Some x /\ ~ In (e, n) ps;
  epd_indexed : same_indexed g g' }.

Record vprops_set (ids : list uuid) (n : ident) (x : json) (g g' : graph) : Prop := {
  vps_vertices : same_vertices g g';
  vps_edges : same_edges g g';
  vps_set : forall id, In id ids -> get (id, n) (gvp g') = Some x;
  vps_kept : forall id m, ~ (In id ids /\ m = n) -> get (id, m) (gvp g') = get (id, m) (gvp g);
  vps_eprops : same_eprops g g';
  vps_indexed : same_indexed g g' }.

Record eprops_set (es : list edge) (n : ident) (x : json) (g g' : graph) : Prop := {
  eps_vertices : same_vertices g g';
  eps_edges : same_edges g g';
  eps_vprops : same_vprops g g';
  eps_set : forall e, In e es -> get (e, n) (gep g') = Some x;
  eps_kept : forall e m, ~ (In e es /\ m = n) -> get (e, m) (gep g') = get (e, m) (gep g);
  eps_indexed : same_indexed g g' }.

Record name_indexed (n : ident) (g g' : graph) : Prop := {
  ni_vertices : same_vertices g g';
  ni_edges : same_edges g g';
  ni_vprops : same_vprops g g';
  ni_eprops : same_eprops g g';
  ni_indexed : forall m, indexed g' m <-> m = n \/ indexed g m }.

(** ** The graph updates of Spec.v do that *)

Lemma create_vertex_claim g v : get (vid v) (gv g) = None -> vertex_created v g (g_create_vertex g v).
Proof.
  intros E. unfold g_create_vertex. apply mem_false in E. rewrite E. apply mem_false in E.
  split; cbn; auto; try (intros ?; reflexivity); try (intros ? ?; reflexivity). intros id. apply get_set.
Qed.

Lemma create_edge_claim g e : mem (eout e) (gv g) && mem (ein e) (gv g) = true -> edge_created e g (g_create_edge g e).
Proof.
  intros E. unfold g_create_edge. rewrite E. apply andb_true_iff in E as [E1 E2].
  split; cbn; auto; try (intros ?; reflexivity); try (intros ? ?; reflexivity); try (apply mem_get; assumption).
  intros f. unfold is_edge. cbn. rewrite mem_add, orb_true_iff, eqb_eq. tauto.
Qed.

Lemma not_inb {A} {O : Ord A} (x : A) l : negb (inb x l) = true <-> ~ In x l.
Proof. rewrite negb_true_iff, <- inb_In. destruct (inb x l); split; congruence. Qed.

Lemma if_some {A} (b : bool) (x : option A) y : (if b then x else None) = Some y <-> x = Some y /\ b = true.
Proof. destruct b; split; [auto|tauto|discriminate|intros [_ H]; discriminate]. Qed.

Lemma delete_vertices_claim g ids : vertices_deleted ids g (g_delete_vertices g ids).
Proof.
  split; cbn.
  - intros id t. rewrite (get_filt_key (fun k => negb (inb k ids))), if_some, not_inb. tauto.
  - intros e. unfold is_edge. cbn. rewrite (mem_filt (fun k => negb (incident ids k))), andb_true_iff.
    unfold incident. rewrite negb_negb_andb, andb_true_iff, !not_inb. tauto.
  - intros id n x. rewrite (get_filt_key (fun k => negb (inb (fst k) ids))), if_some, not_inb. cbn. tauto.
  - intros e n x. rewrite (get_filt_key (fun k => negb (incident ids (fst k) && mem (fst k) (ge g)))), if_some. cbn.
    rewrite negb_true_iff, <- not_true_iff_false, andb_true_iff. unfold incident, is_edge. rewrite orb_true_iff, !inb_In. tauto.
  - intros n. reflexivity.
Qed.

Lemma delete_edges_claim g es : edges_deleted es g (g_delete_edges g es).
Proof.
  split; cbn; try (intros ?; reflexivity); try (intros ? ?; reflexivity).
  - intros e. unfold is_edge. cbn. rewrite (mem_filt (fun k => negb (inb k es))), andb_true_iff, not_inb. tauto.
  - intros e n x. rewrite (get_filt_key (fun k => negb (inb (fst k) es))), if_some, not_inb. cbn. tauto.
Qed.

Lemma delete_vprops_claim g ps : vprops_deleted ps g (g_delete_vertex_properties g ps).
Proof.
  split; cbn; try (intros ?; reflexivity); try (intros ? ?; reflexivity).
  intros id n x. rewrite (get_filt_key (fun k => negb (inb k ps))), if_some, not_inb. tauto.
Qed.
Lemma delete_eprops_claim g ps : eprops_deleted ps g (g_delete_edge_properties g ps).
Proof.
  split; cbn; try (intros ?; reflexivity); try (intros ? ?; reflexivity).
  intros id n x. rewrite (get_filt_key (fun k => negb (inb k ps))), if_some, not_inb. tauto.
Qed.

Lemma set_vprops_claim g ids n x : vprops_set ids n x g (g_set_vertex_properties g ids n x).
Proof.
  split; cbn; try (intros ?; reflexivity); try (intros ? ?; reflexivity).
  - intros id Hid. rewrite get_fold_set. cbn [fst snd]. apply inb_In in Hid. now rewrite Hid, eqb_refl.
  - intros id m N. rewrite get_fold_set. cbn [fst snd]. destruct (inb id ids && eqb m n) eqn:E; [|reflexivity].
    apply andb_true_iff in E as [E1 E2]. apply inb_In in E1. apply eqb_eq in E2. tauto.
Qed.
Lemma set_eprops_claim g es n x : eprops_set es n x g (g_set_edge_properties g es n x).
Proof.
  split; cbn; try (intros ?; reflexivity); try (intros ? ?; reflexivity).
  - intros id Hid. rewrite get_fold_set. cbn [fst snd]. apply inb_In in Hid. now rewrite Hid, eqb_refl.
  - intros id m N. rewrite get_fold_set. cbn [fst snd]. destruct (inb id es && eqb m n) eqn:E; [|reflexivity].
    apply andb_true_iff in E as [E1 E2]. apply inb_In in E1. apply eqb_eq in E2. tauto.
Qed.

Lemma index_claim g n : name_indexed n g (g_index_property g n).
Proof.
  split; cbn; try (intros ?; reflexivity); try (intros ? ?; reflexivity).
  intros m. unfold indexed. cbn. rewrite mem_add, orb_true_iff, eqb_eq. tauto.
Qed.

(** ** Reading the graph through [get] *)

Definition q_vertex (id : uuid) : query := QSpecificVertex [id].
Definition q_edge (e : edge) : query := QSpecificEdge [e].
Definition q_vprop (id : uuid) (n : ident) : query := QPipeProperty (q_vertex id) (Some n).
Definition q_eprop (e : edge) (n : ident) : query := QPipeProperty (q_edge e) (Some n).

(** [shows ops s g]: single-element queries report exactly the graph [g]. *)
Record shows {S} (ops : txn_ops S) (s : S) (g : graph) : Prop := {
  sh_vertex : forall id, db_get ops s (q_vertex id) =
    Ok [Vertices (match get id (gv g) with Some t => [Vertex id t] | None => [] end)];
  sh_edge : forall e, db_get ops s (q_edge e) = Ok [Edges (if mem e (ge g) then [e] else [])];
  sh_vprop : forall id n, db_get ops s (q_vprop id n) =
    Ok [VertexProperties (match get id (gv g), get (id, n) (gvp g) with
                          | Some t, Some x => [VProps (Vertex id t) [NProp n x]]
                          | _, _ => []
                          end)];
  sh_eprop : forall e n, db_get ops s (q_eprop e n) =
    Ok [EdgeProperties (match mem e (ge g), get (e, n) (gep g) with
                        | true, Some x => [EProps e [NProp n x]]
                        | _, _ => []
                        end)];
  sh_indexed : forall n, indexed g n <-> db_get ops s (QVertexWithPropertyPresence n) <> Err NotIndexed }.

Section Shows.
  Context {S : Type}.
  Variable ops : txn_ops S.
  Variable s : S.
  Variable g : graph.
  Variable tlt : ident -> ident -> Prop.
  Variable vmatch : json -> json -> Prop.
  Variable ixok : ident -> Prop.
  Variable bad : uuid -> Prop.
  Hypothesis T : type_order tlt.
  Hypothesis RO : reads_ok ops s g tlt vmatch ixok bad.

  Lemma props_at_one p n ps : props_at p (Some n) ps -> ps = match p n with Some x => [NProp n x] | None => [] end.
  Proof.
    intros L. pose proof (props_single p n) as L'. unfold props_at in *.
    destruct L as [S1 H1], L' as [S2 H2]. eapply sorted_ext; eauto.
    - intros a. apply lt_irrefl.
    - intros a b. apply lt_asym.
    - intros a. now rewrite H1, H2.
  Qed.

  Theorem reads_show : shows ops s g.
  Proof.
    split.
    - intros id. unfold db_get, q_vertex. cbn [query_exec]. rewrite (ro_specific_vertices RO). cbn [obind].
      rewrite collect_Ok. cbn. rewrite app_nil_r. reflexivity.
    - intros e. unfold db_get, q_edge. cbn [query_exec]. destruct (ro_specific_edges RO [e]) as (l & Y & K). unfold yields in Y.
      rewrite Y. cbn [obind]. rewrite collect_Ok. cbn. do 3 f_equal.
      eapply keeps_det; [exact K|]. destruct (mem e (ge g)) eqn:E.
      + apply keeps_yes; [exact E|constructor].
      + apply keeps_no; [unfold is_edge; congruence|constructor].
    - intros id n. unfold db_get, q_vprop, q_vertex. cbn [query_exec]. rewrite (ro_specific_vertices RO). cbn [obind].
      rewrite collect_Ok. cbn [obind pop]. cbn [flat_map]. rewrite app_nil_r. unfold found.
      destruct (get id (gv g)) as [t|]; cbn [props_of_vertices]; [|reflexivity].
      rewrite (ro_vprop RO). unfold vprop_fn. cbn [obind vid]. destruct (get (id, n) (gvp g)); reflexivity.
    - intros e n. unfold db_get, q_eprop, q_edge. cbn [query_exec]. destruct (ro_specific_edges RO [e]) as (l & Y & K). unfold yields in Y.
      rewrite Y. cbn [obind]. rewrite collect_Ok. cbn [obind pop].
      assert (l = if mem e (ge g) then [e] else []) as ->.
      { eapply keeps_det; [exact K|]. destruct (mem e (ge g)) eqn:E.
        - apply keeps_yes; [exact E|constructor].
        - apply keeps_no; [unfold is_edge; congruence|constructor]. }
      destruct (mem e (ge g)); cbn [props_of_edges]; [|reflexivity].
      rewrite (ro_eprop RO). unfold eprop_fn. cbn [obind]. destruct (get (e, n) (gep g)); reflexivity.
    - intros n. unfold db_get. cbn [query_exec]. destruct (ro_vindex RO n) as [[-> N]|(l & -> & I & _)]; cbn [indexed_or_err obind].
      + cbn. split; [contradiction|congruence].
      + rewrite collect_Ok. cbn [obind]. rewrite (ro_specific_vertices RO). cbn [obind]. rewrite collect_Ok. cbn.
        split; [discriminate|auto].
  Qed.
End Shows.

(** ** The same updates, as seen through [get] *)
Section Reading.
  Context {S : Type}.
  Variables (ops ops' : txn_ops S) (s s' : S) (g g' : graph).
  Hypothesis Sh : shows ops s g.
  Hypothesis Sh' : shows ops' s' g'.

  Lemma mem_same_edges : same_edges g g' -> forall e, mem e (ge g') = mem e (ge g).
  Proof.
    intros H e. specialize (H e). unfold is_edge in H.
    destruct (mem e (ge g')), (mem e (ge g)); try reflexivity; destruct H; intuition discriminate.
  Qed.

  Lemma set_vprops_reads ids n x : vprops_set ids n x g g' ->
    (forall v, In (vid v) ids -> is_vertex g v ->
       db_get ops' s' (q_vprop (vid v) n) = Ok [VertexProperties [VProps v [NProp n x]]]) /\
    (forall id n', ~ (In id ids /\ n' = n) -> db_get ops' s' (q_vprop id n') = db_get ops s (q_vprop id n')) /\
    (forall e n', db_get ops' s' (q_eprop e n') = db_get ops s (q_eprop e n')).
  Proof.
    intros C. split; [|split].
    - intros v Hv Iv. rewrite (sh_vprop Sh'), (vps_vertices C), (vps_set C _ Hv), Iv. now destruct v.
    - intros id n' N. now rewrite (sh_vprop Sh), (sh_vprop Sh'), (vps_vertices C), (vps_kept C _ N).
    - intros e n'. now rewrite (sh_eprop Sh), (sh_eprop Sh'), (mem_same_edges (vps_edges C)), (vps_eprops C).
  Qed.

  Lemma set_eprops_reads es n x : eprops_set es n x g g' ->
    (forall e, In e es -> is_edge g e ->
       db_get ops' s' (q_eprop e n) = Ok [EdgeProperties [EProps e [NProp n x]]]) /\
    (forall e n', ~ (In e es /\ n' = n) -> db_get ops' s' (q_eprop e n') = db_get ops s (q_eprop e n')) /\
    (forall id n', db_get ops' s' (q_vprop id n') = db_get ops s (q_vprop id n')).
  Proof.
    intros C. split; [|split].
    - intros e He Ie. rewrite (sh_eprop Sh'), (mem_same_edges (eps_edges C)), (eps_set C _ He).
      unfold is_edge in Ie. now rewrite Ie.
    - intros e n' N. now rewrite (sh_eprop Sh), (sh_eprop Sh'), (mem_same_edges (eps_edges C)), (eps_kept C _ N).
    - intros e n'. now rewrite (sh_vprop Sh), (sh_vprop Sh'), (eps_vertices C), (eps_vprops C).
  Qed.

  Lemma gone {A} (x y : option A) (P : Prop) : (forall a, x = Some a <-> y = Some a /\ ~ P) -> (P -> x = None) /\ (~ P -> x = y).
  Proof.
    intros H. split.
    - intros p. destruct x as [a|]; [|reflexivity]. destruct (proj1 (H a) eq_refl) as [_ N]. contradiction.
    - intros n. destruct y as [a|].
      + now apply H.
      + destruct x as [a|]; [|reflexivity]. destruct (proj1 (H a) eq_refl) as [N _]. discriminate.
  Qed.

  Lemma delete_vprops_reads ps : vprops_deleted ps g g' ->
    (forall id n, In (id, n) ps -> db_get ops' s' (q_vprop id n) = Ok [VertexProperties []]) /\
    (forall id n, ~ In (id, n) ps -> db_get ops' s' (q_vprop id n) = db_get ops s (q_vprop id n)) /\
    (forall e n, db_get ops' s' (q_eprop e n) = db_get ops s (q_eprop e n)).
  Proof.
    intros C. split; [|split].
    - intros id n Hin. destruct (gone (vpd_vprops C id n)) as [G _]. rewrite (sh_vprop Sh'), (G Hin). now destruct (get id (gv g')).
    - intros id n Hin. destruct (gone (vpd_vprops C id n)) as [_ G]. now rewrite (sh_vprop Sh), (sh_vprop Sh'), (G Hin), (vpd_vertices C).
    - intros e n. now rewrite (sh_eprop Sh), (sh_eprop Sh'), (mem_same_edges (vpd_edges C)), (vpd_eprops C).
  Qed.

  Lemma delete_eprops_reads ps : eprops_deleted ps g g' ->
    (forall e n, In (e, n) ps -> db_get ops' s' (q_eprop e n) = Ok [EdgeProperties []]) /\
    (forall e n, ~ In (e, n) ps -> db_get ops' s' (q_eprop e n) = db_get ops s (q_eprop e n)) /\
    (forall id n, db_get ops' s' (q_vprop id n) = db_get ops s (q_vprop id n)).
  Proof.
    intros C. split; [|split].
    - intros id n Hin. destruct (gone (epd_eprops C id n)) as [G _]. rewrite (sh_eprop Sh'), (G Hin). now destruct (mem id (ge g')).
    - intros id n Hin. destruct (gone (epd_eprops C id n)) as [_ G].
      now rewrite (sh_eprop Sh), (sh_eprop Sh'), (G Hin), (mem_same_edges (epd_edges C)).
    - intros e n. now rewrite (sh_vprop Sh), (sh_vprop Sh'), (epd_vertices C), (epd_vprops C).
  Qed.
End Reading.
