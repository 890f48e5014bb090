(** * Each message of the schema: the decoders understand every serialization of it, the encoders write one. *)
From Coq Require Import String.
From Verif Require Import Base OMap Json Types Proto MemFacts Wire WireFacts Schema SchemaFacts.

Set Implicit Arguments.
Local Open Scope string_scope.
Local Open Scope list_scope.
Local Notation bytes := (list byte).

(** ** Decoders *)
Ltac vals_of := unfold uuid_message, ident_message, json_message, edge_message, vertex_message, nprop_message, vprops_message, eprops_message,
    index_message, set_message, created_message, plugin_message, plugin_result_message;
  cbn [fst snd pu_value pi_value pj_value pe_outbound pe_t pe_inbound pv_id pv_t pn_name pn_value pvs_vertex pvs_props pes_edge pes_props psr_q psr_name psr_value pir_name];
  rewrite ?vals_app;
  repeat match goal with
    | |- context [vals ?n (embedded ?n' _ _)] => rewrite (vals_other n (named_embedded n' _ _)) by reflexivity
    | |- context [vals ?n (repeated ?n' _ _)] => rewrite (vals_other n (named_repeated n' _ _)) by reflexivity
    | |- context [vals ?n (number ?n' _)] => rewrite (vals_other n (named_number n' _)) by reflexivity
    | |- context [vals ?n (enum ?n' _)] => rewrite (vals_other n (named_enum n' _)) by reflexivity
    | |- context [vals ?n (flag ?n' _)] => rewrite (vals_other n (named_flag n' _)) by reflexivity
    | |- context [vals ?n (text ?n' _)] => rewrite (vals_other n (named_text n' _)) by reflexivity
    end; rewrite ?app_nil_r; cbn [app].
Ltac vs := vals_of; reflexivity.
Ltac depth1 D D1 := assert (1 <= _)%nat as D1 by (etransitivity; [|exact D]; cbn [depth]; lia).
Ltac comps := let f := fresh "f" in intros;
  repeat match goal with |- context [(fst ?f =? ?t)%N] => destruct (N.eqb_spec (fst f) t) end; unfold opt_step, list_step, opt_uuid, opt_ident, opt_json, opt_edge, opt_vertex, opt_query in *;
  cbn [fst snd pe_outbound pe_t pe_inbound pv_id pv_t pn_name pn_value pvs_vertex pvs_props pes_edge pes_props psr_q psr_name psr_value];
  try match goal with |- context [get_msg ?a ?b ?c] => destruct (get_msg a b c) end; try reflexivity.

Ltac begin O D D1 wl R :=
  depth1 D D1; match goal with |- merge ?s _ ?m _ = _ => destruct (occurs_merge s m O D1) as (wl & R & ->) end.
Ltac distinct := repeat constructor; cbn; intuition discriminate.
Ltac emb R C D nm L := eapply (field_embedded R C D) with (n := nm); [reflexivity|reflexivity|vs|intros; apply L].
Ltac rep R C D nm L := eapply (field_repeated R C D) with (n := nm); [reflexivity|vs|intros; apply L].
Ltac txt R C D nm := eapply (field_text R C D) with (n := nm); [reflexivity|auto|vs].
Notation uuid_step d := (opt_step (down dec_uuid d) (PUuid [])).
Notation ident_step d := (opt_step (down dec_ident d) (PIdent [])).
Notation json_step d := (opt_step (down dec_json d) (PJson [])).
Notation edge_step d := (opt_step (down dec_edge d) no_edge).

Lemma empty_understood : understands "google.protobuf.Empty" dec_empty tt tt [].
Proof.
  intros b occ d O C D. unfold dec_empty. begin O D D1 wl R. clear O C D. induction R as [|f w v wl occ Hf Sa R IH|t w wl occ Ht R IH]; [reflexivity|destruct Hf|].
  cbn [fold_fields]. destruct d; [lia|]. cbn [unknown]. exact IH.
Qed.
Lemma uuid_understood u : understands "Uuid" dec_uuid (PUuid []) u (uuid_message u).
Proof.
  intros b occ d O C D. unfold dec_uuid. begin O D D1 wl R.
  destruct u as [v]. apply (comp1 D1) with (mk := PUuid) (ta := 1%N) (sa := fun _ w => get_bytes w); [reflexivity|]. txt R C D "value".
Qed.
Lemma ident_understood u : understands "Identifier" dec_ident (PIdent []) u (ident_message u).
Proof.
  intros b occ d O C D. unfold dec_ident. begin O D D1 wl R.
  destruct u as [v]. apply (comp1 D1) with (mk := PIdent) (ta := 1%N) (sa := fun _ w => get_string w); [reflexivity|]. txt R C D "value".
Qed.
Lemma json_understood u : understands "Json" dec_json (PJson []) u (json_message u).
Proof.
  intros b occ d O C D. unfold dec_json. begin O D D1 wl R.
  destruct u as [v]. apply (comp1 D1) with (mk := PJson) (ta := 1%N) (sa := fun _ w => get_string w); [reflexivity|]. txt R C D "value".
Qed.
Lemma edge_understood e : understands "Edge" dec_edge no_edge e (edge_message e).
Proof.
  intros b occ d O C D. unfold dec_edge. begin O D D1 wl R.
  destruct e as [o t i]. apply (comp3 D1) with (mk := PEdge) (ta := 1%N) (tb := 2%N) (tc := 3%N) (sa := uuid_step d) (sb := ident_step d) (sc := uuid_step d).
  - distinct.
  - comps.
  - emb R C D "outbound_id" uuid_understood.
  - emb R C D "t" ident_understood.
  - emb R C D "inbound_id" uuid_understood.
Qed.
Lemma vertex_understood v : understands "Vertex" dec_vertex no_vertex v (vertex_message v).
Proof.
  intros b occ d O C D. unfold dec_vertex. begin O D D1 wl R.
  destruct v as [i t]. apply (comp2 D1) with (mk := PVertex) (ta := 1%N) (tb := 2%N) (sa := uuid_step d) (sb := ident_step d).
  - discriminate.
  - comps.
  - emb R C D "id" uuid_understood.
  - emb R C D "t" ident_understood.
Qed.

(** *** Queries *)
Lemma range_understood l t s : understands "RangeVertexQuery" dec_range (0%N, None, None) (l, t, s)
  (number "limit" l ++ embedded "t" ident_message t ++ embedded "start_id" uuid_message s).
Proof.
  intros b occ d O C D. unfold dec_range. begin O D D1 wl R.
  apply (comp3 D1) with (mk := fun a b c => (a, b, c)) (ta := 1%N) (tb := 2%N) (tc := 3%N) (sa := fun _ w => get_u32 w) (sb := ident_step d) (sc := uuid_step d).
  - distinct.
  - comps.
  - eapply (field_number R C D) with (n := "limit"); [reflexivity|vs].
  - emb R C D "t" ident_understood.
  - emb R C D "start_id" uuid_understood.
Qed.
Lemma list_understood {M} m n m' (dec : nat -> M -> bytes -> option M) dflt by_name (U : forall x, understands m' dec dflt x (by_name x)) xs :
  lookup m n = Some (F Repeated (TMsg m') n 1) -> understands m (dec_list dec dflt) [] xs (repeated n by_name xs).
Proof.
  intros E b occ d O C D. unfold dec_list. begin O D D1 wl R.
  apply (comp1 D1) with (mk := fun a => a) (ta := 1%N) (sa := list_step d dec dflt).
  - comps.
  - eapply (field_repeated R C D) with (n := n); [exact E|reflexivity|intros; apply U].
Qed.
Lemma name_understood m n : lookup m "name" = Some (F Plain (TMsg "Identifier") "name" 1) ->
  understands m dec_name None n (embedded "name" ident_message n).
Proof.
  intros E b occ d O C D. unfold dec_name. begin O D D1 wl R.
  apply (comp1 D1) with (mk := fun a => a) (ta := 1%N) (sa := ident_step d).
  - comps.
  - eapply (field_embedded R C D) with (n := "name"); [reflexivity|exact E|vs|intros; apply ident_understood].
Qed.
Lemma name_value_understood m n v : lookup m "name" = Some (F Plain (TMsg "Identifier") "name" 1) -> lookup m "value" = Some (F Plain (TMsg "Json") "value" 2) ->
  understands m dec_name_value (None, None) (n, v) (embedded "name" ident_message n ++ embedded "value" json_message v).
Proof.
  intros E E' b occ d O C D. unfold dec_name_value. begin O D D1 wl R.
  apply (comp2 D1) with (mk := fun a b => (a, b)) (ta := 1%N) (tb := 2%N) (sa := ident_step d) (sb := json_step d).
  - discriminate.
  - comps.
  - eapply (field_embedded R C D) with (n := "name"); [reflexivity|exact E|vs|intros; apply ident_understood].
  - eapply (field_embedded R C D) with (n := "value"); [reflexivity|exact E'|vs|intros; apply json_understood].
Qed.

Section Inner.
  Variable i : option pquery.
  Hypothesis U : forall q, i = Some q -> understands "Query" dec_query PQNone q (query_message q).
  Lemma inner_down d q b : inner_dec (S d) q b = down dec_query d q b.
  Proof. destruct d; reflexivity. Qed.
  Notation query_step_of d := (opt_step (inner_dec (S d)) PQNone).
  Ltac inn R C D := eapply (field_embedded R C D) with (n := "inner"); [intros; apply inner_down|reflexivity|vs|exact U].
  Lemma pipe_understood dir l t : understands "PipeQuery" (fun d => dec_pipe (inner_dec (S d)) d) (None, 0%Z, 0%N, None) (i, dir, l, t)
    (embedded "inner" query_message i ++ enum "direction" dir ++ number "limit" l ++ embedded "t" ident_message t).
  Proof.
    intros b occ d O C D. unfold dec_pipe. begin O D D1 wl R.
    apply (comp4 D1) with (mk := fun a b c e => (a, b, c, e)) (ta := 1%N) (tb := 2%N) (tc := 3%N) (te := 4%N)
      (sa := query_step_of d) (sb := fun _ w => get_i32 w) (sc := fun _ w => get_u32 w) (se := ident_step d).
    - distinct.
    - comps.
    - inn R C D.
    - eapply (field_enum R C D) with (n := "direction"); [reflexivity|vs].
    - eapply (field_number R C D) with (n := "limit"); [reflexivity|vs].
    - emb R C D "t" ident_understood.
  Qed.
  Lemma pipe_property_understood n : understands "PipePropertyQuery" (fun d => dec_pipe_property (inner_dec (S d)) d) (None, None) (i, n)
    (embedded "inner" query_message i ++ embedded "name" ident_message n).
  Proof.
    intros b occ d O C D. unfold dec_pipe_property. begin O D D1 wl R.
    apply (comp2 D1) with (mk := fun a b => (a, b)) (ta := 1%N) (tb := 2%N) (sa := query_step_of d) (sb := ident_step d).
    - discriminate.
    - comps.
    - inn R C D.
    - emb R C D "name" ident_understood.
  Qed.
  Lemma pipe_presence_understood n e : understands "PipeWithPropertyPresenceQuery" (fun d => dec_pipe_presence (inner_dec (S d)) d) (None, None, false) (i, n, e)
    (embedded "inner" query_message i ++ embedded "name" ident_message n ++ flag "exists" e).
  Proof.
    intros b occ d O C D. unfold dec_pipe_presence. begin O D D1 wl R.
    apply (comp3 D1) with (mk := fun a b c => (a, b, c)) (ta := 1%N) (tb := 2%N) (tc := 3%N) (sa := query_step_of d) (sb := ident_step d) (sc := fun _ w => get_bool w).
    - distinct.
    - comps.
    - inn R C D.
    - emb R C D "name" ident_understood.
    - eapply (field_flag R C D) with (n := "exists"); [reflexivity|vs].
  Qed.
  Lemma pipe_value_understood n v e : understands "PipeWithPropertyValueQuery" (fun d => dec_pipe_value (inner_dec (S d)) d) (None, None, None, false) (i, n, v, e)
    (embedded "inner" query_message i ++ embedded "name" ident_message n ++ embedded "value" json_message v ++ flag "equal" e).
  Proof.
    intros b occ d O C D. unfold dec_pipe_value. begin O D D1 wl R.
    apply (comp4 D1) with (mk := fun a b c e => (a, b, c, e)) (ta := 1%N) (tb := 2%N) (tc := 3%N) (te := 4%N)
      (sa := query_step_of d) (sb := ident_step d) (sc := json_step d) (se := fun _ w => get_bool w).
    - distinct.
    - comps.
    - inn R C D.
    - emb R C D "name" ident_understood.
    - emb R C D "value" json_understood.
    - eapply (field_flag R C D) with (n := "equal"); [reflexivity|vs].
  Qed.
  Lemma inner_understood m : lookup m "inner" = Some (F Plain (TMsg "Query") "inner" 1) ->
    understands m (fun d => dec_inner (inner_dec (S d)) d) None i (embedded "inner" query_message i).
  Proof.
    intros E b occ d O C D. unfold dec_inner. begin O D D1 wl R.
    apply (comp1 D1) with (mk := fun a => a) (ta := 1%N) (sa := query_step_of d).
    - comps.
    - eapply (field_embedded R C D) with (n := "inner"); [intros; apply inner_down|exact E|vs|exact U].
  Qed.
End Inner.
Local Arguments dec_range : simpl never.
Local Arguments dec_list : simpl never.
Local Arguments dec_name : simpl never.
Local Arguments dec_name_value : simpl never.
Local Arguments dec_pipe : simpl never.
Local Arguments dec_pipe_property : simpl never.
Local Arguments dec_pipe_presence : simpl never.
Local Arguments dec_pipe_value : simpl never.
Local Arguments dec_inner : simpl never.

Lemma depth_one n v d : (depth (DMsg [(n, v)]) <= S d)%nat -> (depth v <= d)%nat.
Proof. cbn. lia. Qed.
Ltac alts := split; [repeat constructor|discriminate].
Ltac not_in H := repeat match goal with |- context [(?t =? ?k)%N] => destruct (N.eqb_spec t k); [subst; elim H; cbn; tauto|] end; try reflexivity.
Lemma query_unknown_tag d a t w : ~ In t (map f_num (schema "Query")) -> query_step d a t w = Some a.
Proof. intros H. unfold query_step. not_in H. Qed.
(** A query with one alternative. *)
Lemma query_alternative {B} d b occ n m' t l0 q0 (dec : nat -> B -> bytes -> option B) dflt v (k : B -> pquery) :
  occurs "Query" b occ -> content "Query" occ [(n, DMsg l0)] -> (depth (DMsg [(n, DMsg l0)]) <= S d)%nat ->
  lookup "Query" n = Some (F OneOf (TMsg m') n t) -> understands m' dec dflt v l0 ->
  (forall w, query_step d PQNone t w = option_map k (get_msg (dec d) dflt w)) -> k v = q0 ->
  dec_query (S d) PQNone b = Some q0.
Proof.
  intros O C D E U St <-. rewrite dec_query_merge. destruct (occurs_merge (fun q f => query_step d q (fst f) (snd f)) PQNone O (d := S d) ltac:(lia)) as (wl & R & ->).
  destruct (oneof_one R C D (fun q f => query_step d q (fst f) (snd f)) PQNone (n := n) (v := DMsg l0) (ty := TMsg m') (t := t)) as (w & Sa & ->); [alts|reflexivity|exact E| |].
  - intros. now apply query_unknown_tag.
  - cbn [fst snd]. rewrite St. inversion Sa as [| | | | | |m0 b' occ' l' O' C']; subst. cbn [get_msg]. rewrite (U b' occ' d O' C' (depth_one D)). reflexivity.
Qed.
Lemma query_understood q : understands "Query" dec_query PQNone q (query_message q).
Proof.
  assert (forall i, (opt_P (fun q => understands "Query" dec_query PQNone q (query_message q)) i) -> forall q, i = Some q -> understands "Query" dec_query PQNone q (query_message q)) as Inn
    by (intros i P q' ->; exact P).
  induction q using pquery_nested; intros b occ d O C D; (destruct d as [|d]; [cbn [depth query_message] in D; lia|]); cbn [query_message] in C, D.
  - rewrite dec_query_merge. destruct (occurs_merge (fun q f => query_step d q (fst f) (snd f)) PQNone O (d := S d) ltac:(lia)) as (wl & R & ->).
    apply (oneof_none R C); [alts|reflexivity|]. intros. now apply query_unknown_tag.
  - eapply (query_alternative (dec := dec_empty) (dflt := tt) (fun _ => PQAllVertex) O C D); [reflexivity|apply empty_understood|reflexivity|reflexivity].
  - eapply (query_alternative (dec := dec_range) (fun x => let '(l, t, s) := x in PQRangeVertex l t s) O C D); [reflexivity|apply range_understood|reflexivity|reflexivity].
  - eapply (query_alternative (dec := dec_list dec_uuid (PUuid [])) PQSpecificVertex O C D); [reflexivity|apply (list_understood _ uuid_understood); reflexivity|reflexivity|reflexivity].
  - eapply (query_alternative (dec := dec_name) PQVertexWithPropertyPresence O C D); [reflexivity|now apply name_understood|reflexivity|reflexivity].
  - eapply (query_alternative (dec := dec_name_value) (fun x => PQVertexWithPropertyValue (fst x) (snd x)) O C D); [reflexivity|now apply name_value_understood|reflexivity|reflexivity].
  - eapply (query_alternative (dec := dec_empty) (dflt := tt) (fun _ => PQAllEdge) O C D); [reflexivity|apply empty_understood|reflexivity|reflexivity].
  - eapply (query_alternative (dec := dec_list dec_edge no_edge) PQSpecificEdge O C D); [reflexivity|apply (list_understood _ edge_understood); reflexivity|reflexivity|reflexivity].
  - eapply (query_alternative (dec := dec_name) PQEdgeWithPropertyPresence O C D); [reflexivity|now apply name_understood|reflexivity|reflexivity].
  - eapply (query_alternative (dec := dec_name_value) (fun x => PQEdgeWithPropertyValue (fst x) (snd x)) O C D); [reflexivity|now apply name_value_understood|reflexivity|reflexivity].
  - eapply (query_alternative (dec := fun d => dec_pipe (inner_dec (S d)) d) (fun x => let '(i, dir, l, t) := x in PQPipe i dir l t) O C D); [reflexivity|apply (pipe_understood (Inn i H))|reflexivity|reflexivity].
  - eapply (query_alternative (dec := fun d => dec_pipe_property (inner_dec (S d)) d) (fun x => PQPipeProperty (fst x) (snd x)) O C D); [reflexivity|apply (pipe_property_understood (Inn i H))|reflexivity|reflexivity].
  - eapply (query_alternative (dec := fun d => dec_pipe_presence (inner_dec (S d)) d) (fun x => let '(i, n, e) := x in PQPipeWithPropertyPresence i n e) O C D); [reflexivity|apply (pipe_presence_understood (Inn i H))|reflexivity|reflexivity].
  - eapply (query_alternative (dec := fun d => dec_pipe_value (inner_dec (S d)) d) (fun x => let '(i, n, v, e) := x in PQPipeWithPropertyValue i n v e) O C D); [reflexivity|apply (pipe_value_understood (Inn i H))|reflexivity|reflexivity].
  - eapply (query_alternative (dec := fun d => dec_inner (inner_dec (S d)) d) PQInclude O C D); [reflexivity|now apply (inner_understood (Inn i H))|reflexivity|reflexivity].
  - eapply (query_alternative (dec := fun d => dec_inner (inner_dec (S d)) d) PQCount O C D); [reflexivity|now apply (inner_understood (Inn i H))|reflexivity|reflexivity].
Qed.

(** *** Results and requests *)
Lemma nprop_understood p : understands "NamedProperty" dec_nprop no_nprop p (nprop_message p).
Proof.
  intros b occ d O C D. unfold dec_nprop. begin O D D1 wl R.
  destruct p as [n v]. apply (comp2 D1) with (mk := PNProp) (ta := 3%N) (tb := 2%N) (sa := ident_step d) (sb := json_step d).
  - discriminate.
  - comps.
  - emb R C D "name" ident_understood.
  - emb R C D "value" json_understood.
Qed.
Lemma vprops_understood p : understands "VertexProperties" dec_vprops (PVProps None []) p (vprops_message p).
Proof.
  intros b occ d O C D. unfold dec_vprops. begin O D D1 wl R.
  destruct p as [v ps]. apply (comp2 D1) with (mk := PVProps) (ta := 1%N) (tb := 2%N) (sa := opt_step (down dec_vertex d) no_vertex) (sb := list_step d dec_nprop no_nprop).
  - discriminate.
  - comps.
  - emb R C D "vertex" vertex_understood.
  - rep R C D "props" nprop_understood.
Qed.
Lemma eprops_understood p : understands "EdgeProperties" dec_eprops (PEProps None []) p (eprops_message p).
Proof.
  intros b occ d O C D. unfold dec_eprops. begin O D D1 wl R.
  destruct p as [v ps]. apply (comp2 D1) with (mk := PEProps) (ta := 1%N) (tb := 2%N) (sa := edge_step d) (sb := list_step d dec_nprop no_nprop).
  - discriminate.
  - comps.
  - emb R C D "edge" edge_understood.
  - rep R C D "props" nprop_understood.
Qed.
(** A message with one alternative, in general. *)
Lemma alternative {M B} m (step : M -> N * wval -> option M) d b occ n m' t l0 q0 dflt (dec : nat -> B -> bytes -> option B) bd v (k : B -> M) :
  Forall (fun f => f_kind f = OneOf) (schema m) ->
  (forall a t w, ~ In t (map f_num (schema m)) -> step a (t, w) = Some a) ->
  occurs m b occ -> content m occ [(n, DMsg l0)] -> (depth (DMsg [(n, DMsg l0)]) <= S d)%nat ->
  lookup m n = Some (F OneOf (TMsg m') n t) -> understands m' dec bd v l0 ->
  (forall w, step dflt (t, w) = option_map k (get_msg (down dec (S d)) bd w)) -> k v = q0 ->
  merge step (S d) dflt b = Some q0.
Proof.
  intros A Un O C D E U St <-. destruct (occurs_merge step dflt O (d := S d) ltac:(lia)) as (wl & R & ->).
  destruct (oneof_one R C D step dflt (n := n) (v := DMsg l0) (ty := TMsg m') (t := t)) as (w & Sa & ->); [|reflexivity|exact E|exact Un|].
  - split; [exact A|]. apply lookup_in in E as [Hin _]. intros Em. rewrite Em in Hin. destruct Hin.
  - rewrite St. inversion Sa as [| | | | | |m0 b' occ' l' O' C']; subst. cbn [get_msg down]. rewrite (U b' occ' d O' C' (depth_one D)). reflexivity.
Qed.
Ltac unk := let H := fresh in intros ? ? ? H; cbn [fst snd]; not_in H.
Ltac altern kk step O C D L := refine (alternative step _ kk _ _ O C D _ _ _ _); [repeat constructor|unfold step; unk|reflexivity|L|reflexivity|reflexivity].
Lemma out_understood v : understands "QueryOutputValue" dec_out PONone v (out_message v).
Proof.
  intros b occ d O C D. (destruct d as [|d]; [cbn [depth] in D; lia|]). unfold dec_out.
  match goal with |- merge ?s _ _ _ = _ => set (step := s) end.
  destruct v as [|l|l|n|l|l]; cbn [out_message] in C, D.
  - destruct (occurs_merge step PONone O (d := S d) ltac:(lia)) as (wl & R & ->). apply (oneof_none R C); [alts|reflexivity|]. unfold step. unk.
  - altern POVertices step O C D ltac:(apply (list_understood _ vertex_understood); reflexivity).
  - altern POEdges step O C D ltac:(apply (list_understood _ edge_understood); reflexivity).
  - destruct (occurs_merge step PONone O (d := S d) ltac:(lia)) as (wl & R & ->).
    destruct (oneof_one R C D step PONone (n := "count") (v := DNum n) (ty := TU64) (t := 3%N)) as (w & Sa & ->); [alts|reflexivity|reflexivity|unfold step; unk|].
    inversion Sa; subst. reflexivity.
  - altern POVertexProperties step O C D ltac:(apply (list_understood _ vprops_understood); reflexivity).
  - altern POEdgeProperties step O C D ltac:(apply (list_understood _ eprops_understood); reflexivity).
Qed.
Lemma vbulk_understood i n v : understands "VertexPropertyBulkInsertItem" dec_vbulk (None, None, None) (i, n, v)
  (embedded "id" uuid_message i ++ embedded "name" ident_message n ++ embedded "value" json_message v).
Proof.
  intros b occ d O C D. unfold dec_vbulk. begin O D D1 wl R.
  apply (comp3 D1) with (mk := fun a b c => (a, b, c)) (ta := 1%N) (tb := 4%N) (tc := 3%N) (sa := uuid_step d) (sb := ident_step d) (sc := json_step d).
  - distinct.
  - comps.
  - emb R C D "id" uuid_understood.
  - emb R C D "name" ident_understood.
  - emb R C D "value" json_understood.
Qed.
Lemma ebulk_understood i n v : understands "EdgePropertyBulkInsertItem" dec_ebulk (None, None, None) (i, n, v)
  (embedded "edge" edge_message i ++ embedded "name" ident_message n ++ embedded "value" json_message v).
Proof.
  intros b occ d O C D. unfold dec_ebulk. begin O D D1 wl R.
  apply (comp3 D1) with (mk := fun a b c => (a, b, c)) (ta := 1%N) (tb := 4%N) (tc := 3%N) (sa := edge_step d) (sb := ident_step d) (sc := json_step d).
  - distinct.
  - comps.
  - emb R C D "edge" edge_understood.
  - emb R C D "name" ident_understood.
  - emb R C D "value" json_understood.
Qed.
Lemma bulk_understood it : understands "BulkInsertItem" dec_bulk PBNone it (bulk_message it).
Proof.
  intros b occ d O C D. (destruct d as [|d]; [cbn [depth] in D; lia|]). unfold dec_bulk.
  match goal with |- merge ?s _ _ _ = _ => set (step := s) end.
  destruct it as [|v|e|i n v|e n v]; cbn [bulk_message] in C, D.
  - destruct (occurs_merge step PBNone O (d := S d) ltac:(lia)) as (wl & R & ->). apply (oneof_none R C); [alts|reflexivity|]. unfold step. unk.
  - altern PBVertex step O C D ltac:(apply vertex_understood).
  - altern PBEdge step O C D ltac:(apply edge_understood).
  - altern (fun x : option puuid * option pident * option pjson => let '(i, n, v) := x in PBVertexProperty i n v) step O C D ltac:(apply vbulk_understood).
  - altern (fun x : option pedge * option pident * option pjson => let '(i, n, v) := x in PBEdgeProperty i n v) step O C D ltac:(apply ebulk_understood).
Qed.
Lemma index_understood r : understands "IndexPropertyRequest" dec_index_req (PIndexReq None) r (index_message r).
Proof.
  intros b occ d O C D. destruct r as [n]. unfold dec_index_req. cbn [pir_name]. rewrite (@name_understood "IndexPropertyRequest" n eq_refl b occ d O C D). reflexivity.
Qed.
Lemma set_understood r : understands "SetPropertiesRequest" dec_set_req (PSetReq None None None) r (set_message r).
Proof.
  intros b occ d O C D. unfold dec_set_req. begin O D D1 wl R.
  destruct r as [q n v]. apply (comp3 D1) with (mk := PSetReq) (ta := 1%N) (tb := 2%N) (tc := 3%N) (sa := opt_step (down dec_query d) PQNone) (sb := ident_step d) (sc := json_step d).
  - distinct.
  - comps.
  - emb R C D "q" query_understood.
  - emb R C D "name" ident_understood.
  - emb R C D "value" json_understood.
Qed.
Lemma created_understood r : understands "CreateResponse" dec_created false r (created_message r).
Proof.
  intros b occ d O C D. unfold dec_created. begin O D D1 wl R.
  apply (comp1 D1) with (mk := fun a => a) (ta := 1%N) (sa := fun _ w => get_bool w).
  - intros. destruct (_ =? _)%N; [|reflexivity]. now destruct (get_bool _).
  - eapply (field_flag R C D) with (n := "created"); [reflexivity|vs].
Qed.
Lemma plugin_understood r : understands "ExecutePluginRequest" dec_plugin_req ([], None) r (plugin_message r).
Proof.
  intros b occ d O C D. unfold dec_plugin_req. begin O D D1 wl R.
  destruct r as [n a]. apply (comp2 D1) with (mk := fun a b => (a, b)) (ta := 1%N) (tb := 2%N) (sa := fun _ w => get_string w) (sb := json_step d).
  - discriminate.
  - comps.
  - txt R C D "name".
  - emb R C D "arg" json_understood.
Qed.
Lemma plugin_result_understood r : understands "ExecutePluginResponse" dec_plugin_res None r (plugin_result_message r).
Proof.
  intros b occ d O C D. unfold dec_plugin_res. begin O D D1 wl R.
  apply (comp1 D1) with (mk := fun a => a) (ta := 1%N) (sa := json_step d).
  - comps.
  - emb R C D "value" json_understood.
Qed.

(** ** Encoders *)
Lemma plain_content n occ l : plain_vals_ok (vals n occ) -> vals n occ = vals n l ->
  (length (vals n occ) <= 1)%nat /\ filter (fun v => negb (default v)) (vals n occ) = vals n l.
Proof. intros [L F] E. split; [assumption|]. now rewrite F. Qed.
Ltac plain_ok := vals_of; first [apply plain_embedded|apply plain_text|apply plain_number|apply plain_flag|apply plain_enum].
Ltac fields_content := split;
  [let f := fresh "f" in let Hf := fresh "Hf" in intros f Hf; unfold schema in Hf; cbn in Hf;
   repeat (destruct Hf as [<-|Hf]; [cbn [f_kind f_name]; first [apply plain_content; [plain_ok|vs]|vs]|]); destruct Hf
  |let f := fresh "f" in let Hf := fresh "Hf" in let K := fresh "K" in intros (f & Hf & K); unfold schema in Hf; cbn in Hf;
   repeat (destruct Hf as [<-|Hf]; [discriminate K|]); destruct Hf].
Ltac wtext nm := eapply writes_text with (n := nm); [reflexivity|auto].
Ltac wemb nm L := eapply writes_embedded with (n := nm); [reflexivity|exact L|].
Ltac wrep nm L := eapply writes_repeated with (n := nm); [reflexivity|exact L|].
Lemma uuid_conforms : conforms "Uuid" enc_uuid anything uuid_message.
Proof.
  intros u _ Sm. eapply writes_serializes; [wtext "value"|fields_content|exact Sm].
Qed.
Lemma ident_conforms : conforms "Identifier" enc_ident ident_utf8 ident_message.
Proof.
  intros u U Sm. eapply writes_serializes; [wtext "value"|fields_content|exact Sm].
Qed.
Lemma json_conforms : conforms "Json" enc_json json_utf8 json_message.
Proof.
  intros u U Sm. eapply writes_serializes; [wtext "value"|fields_content|exact Sm].
Qed.
Lemma opt_anything {M} (o : option M) : opt_ok anything o.
Proof. destruct o; exact I. Qed.
Ltac wuuid nm := wemb nm uuid_conforms; apply opt_anything.
Ltac wident nm := wemb nm ident_conforms; assumption.
Ltac wjson nm := wemb nm json_conforms; assumption.
Lemma edge_conforms : conforms "Edge" enc_edge edge_ok edge_message.
Proof.
  intros e U Sm. eapply writes_serializes; [apply writes_app; [wuuid "outbound_id"|apply writes_app; [wident "t"|wuuid "inbound_id"]]|fields_content|exact Sm].
Qed.
Lemma vertex_conforms : conforms "Vertex" enc_vertex vertex_ok vertex_message.
Proof.
  intros e U Sm. eapply writes_serializes; [apply writes_app; [wuuid "id"|wident "t"]|fields_content|exact Sm].
Qed.
Lemma list_conforms {M} m n m' (enc : M -> bytes) ok by_name : conforms m' enc ok by_name ->
  schema m = [F Repeated (TMsg m') n 1] ->
  conforms m (fun l => wire (put_list 1 enc l)) (Forall ok) (repeated n by_name).
Proof.
  intros L E l U Sm. eapply writes_serializes; [|split|exact Sm].
  - eapply writes_repeated with (n := n); [|exact L|exact U]. unfold lookup. rewrite E. cbn. now rewrite String.eqb_refl.
  - rewrite E. intros f [<-|[]]. reflexivity.
  - rewrite E. intros (f & [<-|[]] & K). discriminate.
Qed.
Lemma nprop_conforms : conforms "NamedProperty" enc_nprop nprop_ok nprop_message.
Proof.
  intros p [Un Uv] Sm. eapply writes_serializes; [apply writes_app; [wjson "value"|wident "name"]|fields_content|exact Sm].
Qed.
Lemma vprops_conforms : conforms "VertexProperties" enc_vprops vprops_ok vprops_message.
Proof.
  intros p [Un Uv] Sm. eapply writes_serializes; [apply writes_app; [wemb "vertex" vertex_conforms; assumption|wrep "props" nprop_conforms; assumption]|fields_content|exact Sm].
Qed.
Lemma eprops_conforms : conforms "EdgeProperties" enc_eprops eprops_ok eprops_message.
Proof.
  intros p [Un Uv] Sm. eapply writes_serializes; [apply writes_app; [wemb "edge" edge_conforms; assumption|wrep "props" nprop_conforms; assumption]|fields_content|exact Sm].
Qed.
(** One of several alternatives, a message. *)
Lemma alternative_conforms m n m' t b l0 : Forall (fun f => f_kind f = OneOf) (schema m) -> lookup m n = Some (F OneOf (TMsg m') n t) ->
  (small b -> serializes m' b l0) -> small (wire [(t, WLen b)]) -> serializes m (wire [(t, WLen b)]) [(n, DMsg l0)].
Proof.
  intros A E U Sm. eapply writes_serializes; [|now apply content_oneof|exact Sm].
  apply lookup_in in E as [Hf _]. apply (@writes_one m (F OneOf (TMsg m') n t) (WLen b) (DMsg l0) Hf); [exact I|]. cbn. intros Sb.
  destruct (U Sb) as (occ & O & C). econstructor; eauto.
Qed.
Ltac walt nm := eapply alternative_conforms with (n := nm); [repeat constructor|reflexivity| |assumption].
Lemma out_conforms : conforms "QueryOutputValue" enc_out out_ok out_message.
Proof.
  intros [|l|l|n|l|l] U Sm; unfold enc_out, out_message, out_ok in *.
  - exists []. split; [apply o_nil|apply content_nil].
  - walt "vertices". intros Sb. refine (@list_conforms _ _ _ _ _ _ _ vertex_conforms _ l U Sb). reflexivity.
  - walt "edges". intros Sb. refine (@list_conforms _ _ _ _ _ _ _ edge_conforms _ l U Sb). reflexivity.
  - eapply writes_serializes; [|apply content_oneof; repeat constructor|exact Sm].
    apply (@writes_one "QueryOutputValue" (F OneOf TU64 "count" 3) (WVar n) (DNum n)); [cbn; tauto|exact U|]. intros _. constructor.
  - walt "vertex_properties". intros Sb. refine (@list_conforms _ _ _ _ _ _ _ vprops_conforms _ l U Sb). reflexivity.
  - walt "edge_properties". intros Sb. refine (@list_conforms _ _ _ _ _ _ _ eprops_conforms _ l U Sb). reflexivity.
Qed.
Lemma bulk_conforms : conforms "BulkInsertItem" enc_bulk bulk_ok bulk_message.
Proof.
  intros [|v|e|i n v|e n v] U Sm; unfold enc_bulk, bulk_message, bulk_ok in *.
  - exists []. split; [apply o_nil|apply content_nil].
  - walt "vertex". now apply vertex_conforms.
  - walt "edge". now apply edge_conforms.
  - destruct U as (Un & Uv). walt "vertex_property". intros Sb. eapply writes_serializes; [apply writes_app; [wuuid "id"|apply writes_app; [wjson "value"|wident "name"]]|fields_content|exact Sb].
  - destruct U as (Ue & Un & Uv). walt "edge_property". intros Sb.
    eapply writes_serializes; [apply writes_app; [wemb "edge" edge_conforms; assumption|apply writes_app; [wjson "value"|wident "name"]]|fields_content|exact Sb].
Qed.
Lemma name_conforms m : schema m = [F Plain (TMsg "Identifier") "name" 1] -> conforms m (fun n => wire (put_opt 1 enc_ident n)) (opt_ok ident_utf8) (embedded "name" ident_message).
Proof.
  intros E n U Sm. eapply writes_serializes; [eapply writes_embedded with (n := "name"); [|exact ident_conforms|exact U]; unfold lookup; rewrite E; reflexivity|split|exact Sm].
  - rewrite E. intros f [<-|[]]. cbn [f_kind f_name]. apply plain_content; [plain_ok|reflexivity].
  - rewrite E. intros (f & [<-|[]] & K). discriminate.
Qed.
Lemma name_value_conforms m : schema m = [F Plain (TMsg "Identifier") "name" 1; F Plain (TMsg "Json") "value" 2] ->
  conforms m (fun x => wire (put_opt 1 enc_ident (fst x) ++ put_opt 2 enc_json (snd x))) (fun x => opt_ok ident_utf8 (fst x) /\ opt_ok json_utf8 (snd x))
    (fun x => embedded "name" ident_message (fst x) ++ embedded "value" json_message (snd x)).
Proof.
  intros E n [U U'] Sm. eapply writes_serializes; [apply writes_app; [eapply writes_embedded with (n := "name"); [|exact ident_conforms|exact U]; unfold lookup; rewrite E; reflexivity|
    eapply writes_embedded with (n := "value"); [|exact json_conforms|exact U']; unfold lookup; rewrite E; reflexivity]|split|exact Sm].
  - rewrite E. intros f [<-|[<-|[]]]; cbn [f_kind f_name]; (apply plain_content; [plain_ok|vs]).
  - rewrite E. intros (f & [<-|[<-|[]]] & K); discriminate.
Qed.
Lemma query_conforms : conforms "Query" enc_query query_ok query_message.
Proof.
  assert (forall i, opt_P (fun q => query_ok q -> small (enc_query q) -> serializes "Query" (enc_query q) (query_message q)) i ->
    conforms "Query" enc_query (fun q => query_ok q /\ i = Some q) query_message) as Inn.
  { intros i P q' [O ->] Sm. now apply P. }
  assert (forall i, match i with Some q => query_ok q | None => True end -> opt_ok (fun q => query_ok q /\ i = Some q) i) as Ok by (intros [q'|] ?; cbn; auto).
  intros q. induction q using pquery_nested; intros U Sm; cbn [query_ok] in U.
  - exists []. split; [apply o_nil|apply content_nil].
  - cbn [query_message]. walt "all_vertex". intros _. exists []. split; [apply o_nil|apply content_nil].
  - destruct U as (Ul & Ut). cbn [query_message]. walt "range_vertex". intros Sb.
    eapply writes_serializes; [apply writes_app; [eapply writes_number with (n := "limit"); [reflexivity|assumption]|apply writes_app; [wident "t"|wuuid "start_id"]]|fields_content|exact Sb].
  - cbn [query_message]. walt "specific_vertex". intros Sb. refine (@list_conforms _ _ _ _ _ _ _ uuid_conforms _ l _ Sb); [reflexivity|]. apply Forall_forall. intros; exact I.
  - cbn [query_message]. walt "vertex_with_property_presence". intros Sb. refine (@name_conforms _ _ n U Sb). reflexivity.
  - cbn [query_message]. walt "vertex_with_property_value". intros Sb. refine (@name_value_conforms _ _ (n, v) U Sb). reflexivity.
  - cbn [query_message]. walt "all_edge". intros _. exists []. split; [apply o_nil|apply content_nil].
  - cbn [query_message]. walt "specific_edge". intros Sb. refine (@list_conforms _ _ _ _ _ _ _ edge_conforms _ l U Sb). reflexivity.
  - cbn [query_message]. walt "edge_with_property_presence". intros Sb. refine (@name_conforms _ _ n U Sb). reflexivity.
  - cbn [query_message]. walt "edge_with_property_value". intros Sb. refine (@name_value_conforms _ _ (n, v) U Sb). reflexivity.
  - destruct U as (Ui & Ud & Ul & Ut). cbn [query_message]. walt "pipe". intros Sb. change (match i with Some i0 => [("inner", DMsg (query_message i0))] | None => [] end) with (embedded "inner" query_message i).
    eapply writes_serializes; [apply writes_app; [wemb "inner" (Inn i H); now apply Ok|apply writes_app; [eapply writes_enum with (n := "direction"); [reflexivity|assumption]|
      apply writes_app; [eapply writes_number with (n := "limit"); [reflexivity|assumption]|wident "t"]]]|fields_content|exact Sb].
  - destruct U as (Ui & Un). cbn [query_message]. walt "pipe_property". intros Sb. change (match i with Some i0 => [("inner", DMsg (query_message i0))] | None => [] end) with (embedded "inner" query_message i).
    eapply writes_serializes; [apply writes_app; [wemb "inner" (Inn i H); now apply Ok|wident "name"]|fields_content|exact Sb].
  - destruct U as (Ui & Un). cbn [query_message]. walt "pipe_with_property_presence". intros Sb. change (match i with Some i0 => [("inner", DMsg (query_message i0))] | None => [] end) with (embedded "inner" query_message i).
    eapply writes_serializes; [apply writes_app; [wemb "inner" (Inn i H); now apply Ok|apply writes_app; [wident "name"|eapply writes_flag with (n := "exists"); reflexivity]]|fields_content|exact Sb].
  - destruct U as (Ui & Un & Uv). cbn [query_message]. walt "pipe_with_property_value". intros Sb. change (match i with Some i0 => [("inner", DMsg (query_message i0))] | None => [] end) with (embedded "inner" query_message i).
    eapply writes_serializes; [apply writes_app; [wemb "inner" (Inn i H); now apply Ok|apply writes_app; [wident "name"|apply writes_app; [wjson "value"|eapply writes_flag with (n := "equal"); reflexivity]]]|fields_content|exact Sb].
  - cbn [query_message]. walt "include". intros Sb. change (match i with Some i0 => [("inner", DMsg (query_message i0))] | None => [] end) with (embedded "inner" query_message i). eapply writes_serializes; [wemb "inner" (Inn i H); now apply Ok|fields_content|exact Sb].
  - cbn [query_message]. walt "count". intros Sb. change (match i with Some i0 => [("inner", DMsg (query_message i0))] | None => [] end) with (embedded "inner" query_message i). eapply writes_serializes; [wemb "inner" (Inn i H); now apply Ok|fields_content|exact Sb].
Qed.
Lemma set_conforms : conforms "SetPropertiesRequest" enc_set_req set_req_ok set_message.
Proof.
  intros r (Uq & Un & Uv) Sm. eapply writes_serializes; [apply writes_app; [wemb "q" query_conforms; assumption|apply writes_app; [wident "name"|wjson "value"]]|fields_content|exact Sm].
Qed.
Lemma index_conforms : conforms "IndexPropertyRequest" enc_index_req (fun r => opt_ok ident_utf8 (pir_name r)) index_message.
Proof.
  intros r U Sm. eapply writes_serializes; [wident "name"|fields_content|exact Sm].
Qed.
Lemma created_conforms : conforms "CreateResponse" enc_created anything created_message.
Proof.
  intros r U Sm. eapply writes_serializes; [eapply writes_flag with (n := "created"); reflexivity|fields_content|exact Sm].
Qed.
Lemma plugin_conforms : conforms "ExecutePluginRequest" enc_plugin_req (fun r => utf8_valid (fst r) = true /\ opt_ok json_utf8 (snd r)) plugin_message.
Proof.
  intros r [Un Ua] Sm. eapply writes_serializes; [apply writes_app; [wtext "name"|wjson "arg"]|fields_content|exact Sm].
Qed.
Lemma plugin_result_conforms : conforms "ExecutePluginResponse" enc_plugin_res (opt_ok json_utf8) plugin_result_message.
Proof.
  intros r U Sm. eapply writes_serializes; [wjson "value"|fields_content|exact Sm].
Qed.
