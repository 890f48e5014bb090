(** * Conversions: round trips and exactly which messages are accepted. *)
From Coq Require Import String.
From Verif Require Import Base OMap Json Types Util UtilFacts KeyFacts Utf8 Examples PropsData Proto.

Set Implicit Arguments.
Local Open Scope list_scope.
Local Notation bytes := (list byte).

(** ** The identifiers and values inside native data *)

Definition opt_list {A} (x : option A) : list A := match x with Some a => [a] | None => [] end.

Fixpoint q_idents (q : query) : list ident :=
  match q with
  | QRangeVertex _ t _ => opt_list t
  | QVertexWithPropertyPresence n | QEdgeWithPropertyPresence n
  | QVertexWithPropertyValue n _ | QEdgeWithPropertyValue n _ => [n]
  | QSpecificEdge es => map et es
  | QPipe i _ _ t => opt_list t ++ q_idents i
  | QPipeProperty i n => opt_list n ++ q_idents i
  | QPipeWithPropertyPresence i n _ | QPipeWithPropertyValue i n _ _ => n :: q_idents i
  | QInclude i | QCount i => q_idents i
  | _ => []
  end.
Fixpoint q_values (q : query) : list json :=
  match q with
  | QVertexWithPropertyValue _ v | QEdgeWithPropertyValue _ v => [v]
  | QPipeWithPropertyValue i _ v _ => v :: q_values i
  | QPipe i _ _ _ | QPipeProperty i _ | QPipeWithPropertyPresence i _ _ | QInclude i | QCount i => q_values i
  | _ => []
  end.
Definition out_idents (v : outv) : list ident :=
  match v with
  | Vertices l => map vt l
  | Edges l => map et l
  | Count _ => []
  | VertexProperties l => flat_map (fun p => vt (vp_vertex p) :: map np_name (vp_props p)) l
  | EdgeProperties l => flat_map (fun p => et (ep_edge p) :: map np_name (ep_props p)) l
  end.
Definition out_values (v : outv) : list json :=
  match v with
  | VertexProperties l => flat_map (fun p => map np_value (vp_props p)) l
  | EdgeProperties l => flat_map (fun p => map np_value (ep_props p)) l
  | _ => []
  end.
Definition bulk_idents (it : bulk_item) : list ident :=
  match it with
  | BVertex v => [vt v]
  | BEdge e => [et e]
  | BVProp _ n _ => [n]
  | BEProp e n _ => [et e; n]
  end.
Definition bulk_values (it : bulk_item) : list json :=
  match it with BVProp _ _ v | BEProp _ _ v => [v] | _ => [] end.

Lemma ccollect_ok {A B} (f : A -> cres B) (g : B -> A) l : (forall b, In b l -> f (g b) = COk b) ->
  ccollect f (map g l) = COk l.
Proof.
  induction l as [|b l IH]; intros E; cbn; [reflexivity|]. rewrite E by now left. cbn. rewrite IH; [reflexivity|].
  intros; apply E; now right.
Qed.

Lemma ccollect_iff {A B} (f : A -> cres B) l :
  (exists r, ccollect f l = COk r) <-> Forall (fun x => exists b, f x = COk b) l.
Proof.
  induction l as [|x l IH]; cbn.
  - split; [constructor|eauto].
  - rewrite Forall_cons_iff, <- IH. clear IH. destruct (f x) as [b|e]; cbn.
    + destruct (ccollect f l) as [r|e]; cbn.
      * split; intros _; eauto.
      * split; [intros [? E]; discriminate|intros [_ [? E]]; discriminate].
    + split; [intros [? E]; discriminate|intros [[? E] _]; discriminate].
Qed.

Section Facts.
  Variable alnum : N -> bool.
  Variable enc : json -> bytes.
  Variable dec : bytes -> option json.

  (** The identifier was obtained from [Identifier::new]. *)
  Definition valid_ident (i : ident) : Prop := exists s, ident_new alnum s = VOk i.
  (** The text codec round-trips the value. *)
  Definition text_ok (v : json) : Prop := dec (enc v) = Some v.

  Lemma of_ident_to i : valid_ident i -> of_ident alnum (to_ident i) = COk i.
  Proof.
    intros (s & E). unfold of_ident, to_ident. cbn. pose proof E as E0.
    apply C36_identifier_new in E as (-> & _). now rewrite E0.
  Qed.
  Lemma of_uuid_to u : of_uuid (to_uuid u) = COk u.
  Proof. unfold of_uuid, to_uuid. cbn. now rewrite mk_uuid_of. Qed.
  Lemma of_json_to v : text_ok v -> of_json dec (to_json enc v) = COk v.
  Proof. unfold of_json, to_json. cbn. now intros ->. Qed.
  Lemma of_edge_to e : valid_ident (et e) -> of_edge alnum (to_edge e) = COk e.
  Proof. intros V. unfold of_edge, to_edge. cbn. rewrite !of_uuid_to, of_ident_to by assumption. cbn. now destruct e. Qed.
  Lemma of_vertex_to v : valid_ident (vt v) -> of_vertex alnum (to_vertex v) = COk v.
  Proof. intros V. unfold of_vertex, to_vertex. cbn. rewrite !of_uuid_to, of_ident_to by assumption. cbn. now destruct v. Qed.
  Lemma of_direction_to d : of_direction (to_direction d) = d.
  Proof. now destruct d. Qed.
  Lemma of_ident_opt t : Forall valid_ident (opt_list t) -> coption (of_ident alnum) (option_map to_ident t) = COk t.
  Proof. destruct t; cbn; [|reflexivity]. intros F. apply Forall_inv in F. now rewrite of_ident_to. Qed.
  Lemma of_uuid_opt t : coption of_uuid (option_map to_uuid t) = COk t.
  Proof. destruct t; cbn; [|reflexivity]. now rewrite of_uuid_to. Qed.

  Theorem of_query_to q : Forall valid_ident (q_idents q) -> Forall text_ok (q_values q) ->
    of_query alnum dec (to_query enc q) = COk q.
  Proof.
    induction q; cbn [q_idents q_values to_query of_query]; intros I V; cbn [required cbind].
    - reflexivity.
    - now rewrite of_ident_opt, of_uuid_opt.
    - rewrite ccollect_ok; [reflexivity|]. intros; apply of_uuid_to.
    - apply Forall_inv in I. now rewrite of_ident_to.
    - apply Forall_inv in I, V. now rewrite of_ident_to, of_json_to.
    - reflexivity.
    - rewrite ccollect_ok; [reflexivity|]. intros e He. apply of_edge_to. rewrite Forall_forall in I. apply I, in_map, He.
    - apply Forall_inv in I. now rewrite of_ident_to.
    - apply Forall_inv in I, V. now rewrite of_ident_to, of_json_to.
    - apply Forall_app in I as [It Iq]. rewrite of_ident_opt by assumption. cbn [cbind]. rewrite IHq by assumption. cbn [cbind].
      now rewrite of_direction_to.
    - apply Forall_app in I as [It Iq]. rewrite of_ident_opt by assumption. cbn [cbind]. now rewrite IHq.
    - apply Forall_cons_iff in I as [In Iq]. rewrite IHq by assumption. cbn [cbind]. now rewrite of_ident_to.
    - apply Forall_cons_iff in I as [In Iq]. apply Forall_cons_iff in V as [Vv Vq]. rewrite IHq by assumption. cbn [cbind].
      rewrite of_ident_to by assumption. cbn [cbind]. now rewrite of_json_to.
    - now rewrite IHq.
    - now rewrite IHq.
  Qed.

  Lemma of_nprop_to p : valid_ident (np_name p) -> text_ok (np_value p) -> of_nprop alnum dec (to_nprop enc p) = COk p.
  Proof. intros I V. unfold of_nprop, to_nprop. cbn. rewrite of_ident_to by assumption. cbn. rewrite of_json_to by assumption. now destruct p. Qed.
  Lemma of_nprops_to l : Forall valid_ident (map np_name l) -> Forall text_ok (map np_value l) ->
    ccollect (of_nprop alnum dec) (map (to_nprop enc) l) = COk l.
  Proof.
    intros I V. rewrite Forall_forall in *. apply ccollect_ok. intros p Hp. apply of_nprop_to; [apply I|apply V]; now apply in_map.
  Qed.

  Lemma Forall_flat_map {A B} (P : B -> Prop) (f : A -> list B) l : Forall P (flat_map f l) <-> Forall (fun x => Forall P (f x)) l.
  Proof.
    induction l as [|x l IH]; cbn; [split; constructor|]. now rewrite Forall_app, Forall_cons_iff, IH.
  Qed.

  Theorem of_out_to v : Forall valid_ident (out_idents v) -> Forall text_ok (out_values v) ->
    of_out alnum dec (to_out enc v) = COk v.
  Proof.
    destruct v as [l|l|n|l|l]; cbn [out_idents out_values to_out of_out]; intros I V.
    - rewrite ccollect_ok; [reflexivity|]. intros x Hx. apply of_vertex_to. rewrite Forall_forall in I. apply I, in_map, Hx.
    - rewrite ccollect_ok; [reflexivity|]. intros x Hx. apply of_edge_to. rewrite Forall_forall in I. apply I, in_map, Hx.
    - reflexivity.
    - apply Forall_flat_map in I, V. rewrite Forall_forall in I, V.
      rewrite ccollect_ok; [reflexivity|]. intros x Hx. specialize (I x Hx). specialize (V x Hx).
      apply Forall_cons_iff in I as [I1 I2]. unfold of_vprops, to_vprops. cbn [required cbind pvs_vertex pvs_props pes_edge pes_props]. rewrite of_vertex_to by assumption. cbn [cbind].
      rewrite of_nprops_to by assumption. cbn [cbind]. now destruct x.
    - apply Forall_flat_map in I, V. rewrite Forall_forall in I, V.
      rewrite ccollect_ok; [reflexivity|]. intros x Hx. specialize (I x Hx). specialize (V x Hx).
      apply Forall_cons_iff in I as [I1 I2]. unfold of_eprops, to_eprops. cbn [required cbind pvs_vertex pvs_props pes_edge pes_props]. rewrite of_edge_to by assumption. cbn [cbind].
      rewrite of_nprops_to by assumption. cbn [cbind]. now destruct x.
  Qed.

  Theorem of_bulk_to it : Forall valid_ident (bulk_idents it) -> Forall text_ok (bulk_values it) ->
    of_bulk alnum dec (to_bulk enc it) = COk it.
  Proof.
    destruct it as [v|e|id n x|e n x]; cbn [bulk_idents bulk_values to_bulk of_bulk required cbind]; intros I V.
    - apply Forall_inv in I. now rewrite of_vertex_to.
    - apply Forall_inv in I. now rewrite of_edge_to.
    - apply Forall_inv in I, V. rewrite of_uuid_to. cbn [cbind]. rewrite of_ident_to by assumption. cbn [cbind]. now rewrite of_json_to.
    - apply Forall_inv in V. apply Forall_cons_iff in I as [I1 I2]. apply Forall_inv in I2.
      rewrite of_edge_to by assumption. cbn [cbind]. rewrite of_ident_to by assumption. cbn [cbind]. now rewrite of_json_to.
  Qed.

  (** ** Which messages are well formed *)

  Definition wf_uuid (u : puuid) : Prop := length (pu_value u) = 16%nat.
  Definition wf_ident (i : pident) : Prop :=
    (length (pi_value i) <= 255)%nat /\
    exists cs, Forall scalar_value cs /\ pi_value i = flat_map utf8_enc cs /\
               Forall (fun c => c = 45%N \/ c = 95%N \/ alnum c = true) cs.
  Definition wf_json (v : pjson) : Prop := exists x, dec (pj_value v) = Some x.
  (** A field that must be present. *)
  Definition need {A} (P : A -> Prop) (x : option A) : Prop := exists a, x = Some a /\ P a.
  (** A field that may be absent. *)
  Definition may {A} (P : A -> Prop) (x : option A) : Prop := forall a, x = Some a -> P a.
  Definition wf_edge (e : pedge) : Prop :=
    need wf_uuid (pe_outbound e) /\ need wf_ident (pe_t e) /\ need wf_uuid (pe_inbound e).
  Definition wf_vertex (v : pvertex) : Prop := need wf_uuid (pv_id v) /\ need wf_ident (pv_t v).
  Inductive wf_query : pquery -> Prop :=
  | wf_all_vertex : wf_query PQAllVertex
  | wf_range l t s : may wf_ident t -> may wf_uuid s -> wf_query (PQRangeVertex l t s)
  | wf_specific_vertex ids : Forall wf_uuid ids -> wf_query (PQSpecificVertex ids)
  | wf_vpresence n : need wf_ident n -> wf_query (PQVertexWithPropertyPresence n)
  | wf_vvalue n v : need wf_ident n -> need wf_json v -> wf_query (PQVertexWithPropertyValue n v)
  | wf_all_edge : wf_query PQAllEdge
  | wf_specific_edge es : Forall wf_edge es -> wf_query (PQSpecificEdge es)
  | wf_epresence n : need wf_ident n -> wf_query (PQEdgeWithPropertyPresence n)
  | wf_evalue n v : need wf_ident n -> need wf_json v -> wf_query (PQEdgeWithPropertyValue n v)
  | wf_pipe i d l t : wf_query i -> may wf_ident t -> wf_query (PQPipe (Some i) d l t)
  | wf_pipe_property i n : wf_query i -> may wf_ident n -> wf_query (PQPipeProperty (Some i) n)
  | wf_pipe_presence i n b : wf_query i -> need wf_ident n -> wf_query (PQPipeWithPropertyPresence (Some i) n b)
  | wf_pipe_value i n v b : wf_query i -> need wf_ident n -> need wf_json v ->
      wf_query (PQPipeWithPropertyValue (Some i) n v b)
  | wf_include i : wf_query i -> wf_query (PQInclude (Some i))
  | wf_count i : wf_query i -> wf_query (PQCount (Some i)).
  Definition wf_bulk (it : pbulk) : Prop :=
    match it with
    | PBNone => False
    | PBVertex v => wf_vertex v
    | PBEdge e => wf_edge e
    | PBVertexProperty id n v => need wf_uuid id /\ need wf_ident n /\ need wf_json v
    | PBEdgeProperty e n v => need wf_edge e /\ need wf_ident n /\ need wf_json v
    end.
  Definition wf_index_req (r : pindex_req) : Prop := need wf_ident (pir_name r).
  Definition wf_set_req (r : pset_req) : Prop := need wf_query (psr_q r) /\ need wf_ident (psr_name r) /\ need wf_json (psr_value r).

  (** Responses to [get]. *)
  Definition wf_nprop (p : pnprop) : Prop := need wf_ident (pn_name p) /\ need wf_json (pn_value p).
  Definition wf_out (m : pout) : Prop :=
    match m with
    | PONone => False
    | POVertices l => Forall wf_vertex l
    | POEdges l => Forall wf_edge l
    | POCount _ => True
    | POVertexProperties l => Forall (fun p => need wf_vertex (pvs_vertex p) /\ Forall wf_nprop (pvs_props p)) l
    | POEdgeProperties l => Forall (fun p => need wf_edge (pes_edge p) /\ Forall wf_nprop (pes_props p)) l
    end.

  (** ** They are exactly the accepted ones *)

  Definition accepted {A} (x : cres A) : Prop := exists a, x = COk a.

  Lemma acc_ok {A} (a : A) : accepted (COk a) <-> True.
  Proof. unfold accepted. split; eauto. Qed.
  Lemma acc_err {A} e : accepted (@CErr A e) <-> False.
  Proof. unfold accepted. split; [intros [? E]; discriminate|tauto]. Qed.
  Lemma acc_bind {A B} (x : cres A) (f : A -> cres B) (P : Prop) :
    (forall a, x = COk a -> (accepted (f a) <-> P)) -> (accepted (cbind x f) <-> accepted x /\ P).
  Proof.
    intros E. destruct x as [a|e]; cbn.
    - rewrite (E a eq_refl), acc_ok. tauto.
    - rewrite !acc_err. tauto.
  Qed.
  Lemma acc_bind_ret {A B} (x : cres A) (f : A -> B) : accepted (cbind x (fun a => COk (f a))) <-> accepted x.
  Proof. rewrite (@acc_bind A B x (fun a => COk (f a)) True); [tauto|]. intros. apply acc_ok. Qed.
  Lemma acc_need {A B} name (x : option A) (f : A -> cres B) (P : A -> Prop) :
    (forall a, accepted (f a) <-> P a) -> (accepted (cbind (required name x) f) <-> need P x).
  Proof.
    intros E. destruct x as [a|]; cbn; unfold need.
    - rewrite E. split; [eauto|intros (b & Eb & Hb); congruence].
    - rewrite acc_err. split; [tauto|intros (b & Eb & _); discriminate].
  Qed.
  Lemma acc_may {A B} (f : A -> cres B) (P : A -> Prop) x : (forall a, accepted (f a) <-> P a) -> (accepted (coption f x) <-> may P x).
  Proof.
    intros E. destruct x as [a|]; cbn; unfold may.
    - rewrite acc_bind_ret, E. split; [intros H b Hb; congruence|auto].
    - rewrite acc_ok. split; [intros _ b Hb; discriminate|auto].
  Qed.
  Lemma acc_collect {A B} (f : A -> cres B) (P : A -> Prop) l : (forall a, accepted (f a) <-> P a) ->
    (accepted (ccollect f l) <-> Forall P l).
  Proof.
    intros E. unfold accepted at 1. rewrite ccollect_iff. split; apply Forall_impl; intros a; apply E.
  Qed.

  Lemma acc_uuid u : accepted (of_uuid u) <-> wf_uuid u.
  Proof.
    unfold of_uuid, wf_uuid, mk_uuid. destruct (bool_dec (Nat.eqb (length (pu_value u)) 16) true) as [e|n].
    - rewrite acc_ok. apply Nat.eqb_eq in e. tauto.
    - rewrite acc_err. split; [tauto|]. intros E. apply n. now apply Nat.eqb_eq.
  Qed.
  Lemma acc_ident i : accepted (of_ident alnum i) <-> wf_ident i.
  Proof.
    unfold of_ident, wf_ident. destruct (ident_new alnum (pi_value i)) as [x|e] eqn:E.
    - rewrite acc_ok. apply C36_identifier_new in E. tauto.
    - rewrite acc_err. split; [tauto|]. intros (L & cs & Hs & Ep & Hc).
      assert (ident_ok (pi_value i) = true) as K.
      { unfold ident_ok, utf8_valid. assert (utf8_chars (pi_value i) = Some cs) as -> by (apply utf8_chars_iff; auto).
        rewrite andb_true_r. now apply Nat.leb_le. }
      assert (ident_new alnum (pi_value i) = VOk (exist _ (pi_value i) K)) as E2.
      { apply C36_identifier_new. split; [reflexivity|]. eauto. }
      congruence.
  Qed.
  Lemma acc_json v : accepted (of_json dec v) <-> wf_json v.
  Proof.
    unfold of_json, wf_json. destruct (dec (pj_value v)) as [x|]; [rewrite acc_ok|rewrite acc_err]; split; eauto;
    [intros []|intros [? E]; discriminate].
  Qed.
  Lemma acc_edge e : accepted (of_edge alnum e) <-> wf_edge e.
  Proof.
    unfold of_edge, wf_edge.
    rewrite (@acc_need _ _ _ _ _ (fun o => wf_uuid o /\ need wf_ident (pe_t e) /\ need wf_uuid (pe_inbound e))).
    - unfold need. split; [intros (a & -> & H1 & H2); eauto|intros ((a & -> & H1) & H2); eauto].
    - intros o. rewrite (@acc_bind _ _ _ _ (need wf_ident (pe_t e) /\ need wf_uuid (pe_inbound e))), acc_uuid; [tauto|]. intros o' _.
      rewrite (@acc_need _ _ _ _ _ (fun t => wf_ident t /\ need wf_uuid (pe_inbound e))).
      + unfold need. split; [intros (a & -> & H1 & H2); eauto|intros ((a & -> & H1) & H2); eauto].
      + intros t. rewrite (@acc_bind _ _ _ _ (need wf_uuid (pe_inbound e))), acc_ident; [tauto|]. intros t' _.
        apply acc_need. intros i. now rewrite acc_bind_ret, acc_uuid.
  Qed.
  Lemma acc_vertex v : accepted (of_vertex alnum v) <-> wf_vertex v.
  Proof.
    unfold of_vertex, wf_vertex.
    rewrite (@acc_need _ _ _ _ _ (fun o => wf_uuid o /\ need wf_ident (pv_t v))).
    - unfold need. split; [intros (a & -> & H1 & H2); eauto|intros ((a & -> & H1) & H2); eauto].
    - intros o. rewrite (@acc_bind _ _ _ _ (need wf_ident (pv_t v))), acc_uuid; [tauto|]. intros o' _.
      apply acc_need. intros i. now rewrite acc_bind_ret, acc_ident.
  Qed.

  Lemma acc_nprop p : accepted (of_nprop alnum dec p) <-> wf_nprop p.
  Proof.
    unfold of_nprop, wf_nprop.
    rewrite (@acc_need _ _ _ _ _ (fun o => wf_ident o /\ need wf_json (pn_value p))).
    - unfold need. split; [intros (a & -> & H1 & H2); eauto|intros ((a & -> & H1) & H2); eauto].
    - intros o. rewrite (@acc_bind _ _ _ _ (need wf_json (pn_value p))), acc_ident; [tauto|]. intros o' _.
      apply acc_need. intros i. now rewrite acc_bind_ret, acc_json.
  Qed.
  Lemma acc_out m : accepted (of_out alnum dec m) <-> wf_out m.
  Proof.
    destruct m as [|l|l|n|l|l]; cbn [of_out wf_out]; rewrite ?acc_bind_ret, ?acc_ok, ?acc_err; try reflexivity; apply acc_collect.
    - apply acc_vertex.
    - apply acc_edge.
    - intros p. unfold of_vprops. rewrite (@acc_need _ _ _ _ _ (fun o => wf_vertex o /\ Forall wf_nprop (pvs_props p))).
      + unfold need. split; [intros (a & -> & H1 & H2); eauto|intros ((a & -> & H1) & H2); eauto].
      + intros o. rewrite (@acc_bind _ _ _ _ (Forall wf_nprop (pvs_props p))), acc_vertex; [tauto|]. intros o' _.
        rewrite acc_bind_ret. apply acc_collect, acc_nprop.
    - intros p. unfold of_eprops. rewrite (@acc_need _ _ _ _ _ (fun o => wf_edge o /\ Forall wf_nprop (pes_props p))).
      + unfold need. split; [intros (a & -> & H1 & H2); eauto|intros ((a & -> & H1) & H2); eauto].
      + intros o. rewrite (@acc_bind _ _ _ _ (Forall wf_nprop (pes_props p))), acc_edge; [tauto|]. intros o' _.
        rewrite acc_bind_ret. apply acc_collect, acc_nprop.
  Qed.

  (** Two or three required fields, all taken before any is converted. *)
  Lemma acc_name n {B} (k : ident -> B) :
    accepted (cbind (required "name" n) (fun n => cbind (of_ident alnum n) (fun n => COk (k n)))) <-> need wf_ident n.
  Proof. apply acc_need. intros i. now rewrite acc_bind_ret, acc_ident. Qed.
  Lemma acc_name_value n v {B} (k : ident -> json -> B) :
    accepted (cbind (required "name" n) (fun n => cbind (required "value" v) (fun v =>
      cbind (of_ident alnum n) (fun n => cbind (of_json dec v) (fun v => COk (k n v)))))) <->
    need wf_ident n /\ need wf_json v.
  Proof.
    destruct n as [n|]; cbn [required cbind].
    - rewrite (@acc_need _ _ _ _ _ (fun v => wf_ident n /\ wf_json v)).
      + unfold need. split; [intros (a & -> & H1 & H2); split; eauto|intros ((a & Ea & H1) & b & -> & H2); inversion Ea; subst; eauto].
      + intros w. rewrite (@acc_bind _ _ _ _ (wf_json w)), acc_ident; [tauto|]. intros; now rewrite acc_bind_ret, acc_json.
    - rewrite acc_err. unfold need. split; [tauto|]. intros ((? & E & _) & _). discriminate.
  Qed.

  Lemma need_some {A} (P : A -> Prop) a : need P (Some a) <-> P a.
  Proof. unfold need. split; [intros (b & E & H); congruence|eauto]. Qed.
  Lemma need_none {A} (P : A -> Prop) : need P None <-> False.
  Proof. unfold need. split; [intros (b & E & H); discriminate|tauto]. Qed.

  Theorem acc_query : forall q, accepted (of_query alnum dec q) <-> wf_query q.
  Proof.
    assert (forall q, (accepted (of_query alnum dec q) -> wf_query q) /\ (wf_query q -> accepted (of_query alnum dec q))) as G;
      [|intros q; destruct (G q); split; assumption].
    fix IH 1. intros q.
    assert (forall i : option pquery, match i with Some i' => (accepted (of_query alnum dec i') <-> wf_query i') | None => True end -> True) as _ by auto.
    destruct q as [| |l t s|ids|n|n v| |es|n|n v|i d l t|i n|i n b|i n v b|i|i]; cbn [of_query].
    - rewrite acc_err. split; [tauto|intros W; inversion W].
    - split; [constructor|]. intros _. now apply acc_ok.
    - rewrite (@acc_bind _ _ _ _ (may wf_uuid s)), (@acc_may _ _ _ _ _ acc_ident).
      + split; [intros []; now constructor|intros W; inversion W; auto].
      + intros. now rewrite acc_bind_ret, (@acc_may _ _ _ _ _ acc_uuid).
    - rewrite acc_bind_ret, (@acc_collect _ _ _ _ _ acc_uuid). split; [now constructor|intros W; now inversion W].
    - rewrite acc_name. split; [now constructor|intros W; now inversion W].
    - rewrite acc_name_value. split; [intros []; now constructor|intros W; inversion W; auto].
    - split; [constructor|]. intros _. now apply acc_ok.
    - rewrite acc_bind_ret, (@acc_collect _ _ _ _ _ acc_edge). split; [now constructor|intros W; now inversion W].
    - rewrite acc_name. split; [now constructor|intros W; now inversion W].
    - rewrite acc_name_value. split; [intros []; now constructor|intros W; inversion W; auto].
    - destruct i as [i|].
      + destruct (IH i) as [I1 I2]. rewrite (@acc_bind _ _ _ _ (wf_query i)), (@acc_may _ _ _ _ _ acc_ident).
        * split; [intros []; now constructor|intros W; inversion W; auto].
        * intros. rewrite acc_bind_ret. split; assumption.
      + rewrite (@acc_bind _ _ _ _ (False)); [|intros; apply acc_err]. split; [tauto|intros W; inversion W].
    - destruct i as [i|].
      + destruct (IH i) as [I1 I2]. rewrite (@acc_bind _ _ _ _ (wf_query i)), (@acc_may _ _ _ _ _ acc_ident).
        * split; [intros []; now constructor|intros W; inversion W; auto].
        * intros. rewrite acc_bind_ret. split; assumption.
      + rewrite acc_err. split; [tauto|intros W; inversion W].
    - destruct i as [i|].
      + destruct (IH i) as [I1 I2].
        rewrite (@acc_need _ _ _ _ _ (fun n => wf_query i /\ wf_ident n)).
        * split; [intros (a & -> & H1 & H2); constructor; auto; now apply need_some|].
          intros W; inversion W as [| | | | | | | | | | |? ? ? ? (a & -> & ?)| | |]; subst. exists a; auto.
        * intros a. rewrite (@acc_bind _ _ _ _ (wf_ident a)).
          -- split; intros [A1 A2]; auto.
          -- intros. now rewrite acc_bind_ret, acc_ident.
      + rewrite acc_err. split; [tauto|intros W; inversion W].
    - destruct i as [i|].
      + destruct (IH i) as [I1 I2].
        rewrite (@acc_need _ _ _ _ _ (fun n => (wf_query i /\ wf_ident n) /\ need wf_json v)).
        * split; [intros (a & -> & (H1 & H2) & H3); constructor; auto; now apply need_some|].
          intros W; inversion W as [| | | | | | | | | | | |? ? ? ? ? (a & -> & ?) ?| |]; subst. exists a; auto.
        * intros a. rewrite (@acc_need _ _ _ _ _ (fun w => (wf_query i /\ wf_ident a) /\ wf_json w)).
          -- unfold need. split; [intros (w & -> & H1 & H2); split; eauto|intros (H1 & w & -> & H2); eauto].
          -- intros w. rewrite (@acc_bind _ _ _ _ (wf_ident a /\ wf_json w)).
             ++ split; [intros (A1 & A2 & A3); auto|intros ((A1 & A2) & A3); auto].
             ++ intros. rewrite (@acc_bind _ _ _ _ (wf_json w)), acc_ident; [tauto|]. intros; now rewrite acc_bind_ret, acc_json.
      + rewrite acc_err. split; [tauto|intros W; inversion W].
    - destruct i as [i|].
      + destruct (IH i) as [I1 I2]. rewrite acc_bind_ret. split; [intros; constructor; auto|intros W; inversion W; auto].
      + rewrite acc_err. split; [tauto|intros W; inversion W].
    - destruct i as [i|].
      + destruct (IH i) as [I1 I2]. rewrite acc_bind_ret. split; [intros; constructor; auto|intros W; inversion W; auto].
      + rewrite acc_err. split; [tauto|intros W; inversion W].
  Qed.

  (** Three required fields converted one after the other. *)
  Lemma acc_three {A B C A' B' C' D} s1 s2 s3 (x : option A) (y : option B) (z : option C)
    (f : A -> cres A') (g : B -> cres B') (h : C -> cres C') (k : A' -> B' -> C' -> D) (P : A -> Prop) (Q : B -> Prop) (R : C -> Prop) :
    (forall a, accepted (f a) <-> P a) -> (forall a, accepted (g a) <-> Q a) -> (forall a, accepted (h a) <-> R a) ->
    (accepted (let! a := required s1 x in let! a := f a in let! b := required s2 y in let! b := g b in
               let! c := required s3 z in let! c := h c in COk (k a b c)) <-> need P x /\ need Q y /\ need R z).
  Proof.
    intros EP EQ ER.
    rewrite (@acc_need _ _ _ _ _ (fun a => P a /\ need Q y /\ need R z)).
    - unfold need. split; [intros (a & -> & H1 & H2); eauto|intros ((a & -> & H1) & H2); eauto].
    - intros a. rewrite (@acc_bind _ _ _ _ (need Q y /\ need R z)), EP; [tauto|]. intros a' _.
      rewrite (@acc_need _ _ _ _ _ (fun b => Q b /\ need R z)).
      + unfold need. split; [intros (b & -> & H1 & H2); eauto|intros ((b & -> & H1) & H2); eauto].
      + intros b. rewrite (@acc_bind _ _ _ _ (need R z)), EQ; [tauto|]. intros b' _.
        apply acc_need. intros c. now rewrite acc_bind_ret, ER.
  Qed.

  Theorem acc_bulk it : accepted (of_bulk alnum dec it) <-> wf_bulk it.
  Proof.
    destruct it; cbn [of_bulk wf_bulk].
    - apply acc_err.
    - now rewrite acc_bind_ret, acc_vertex.
    - now rewrite acc_bind_ret, acc_edge.
    - apply acc_three; [apply acc_uuid|apply acc_ident|apply acc_json].
    - apply acc_three; [apply acc_edge|apply acc_ident|apply acc_json].
  Qed.
  Theorem acc_set_req r : accepted (of_set_req alnum dec r) <-> wf_set_req r.
  Proof. unfold of_set_req, wf_set_req. apply (@acc_three _ _ _ _ _ _ _ "q"%string "name"%string "value"%string _ _ _ _ _ _ (fun q n v => (q, n, v))); [apply acc_query|apply acc_ident|apply acc_json]. Qed.
  Theorem acc_index_req r : accepted (of_index_req alnum r) <-> wf_index_req r.
  Proof. unfold of_index_req, wf_index_req. apply acc_need. apply acc_ident. Qed.
End Facts.
