(** * C47: what crosses the wire is what was sent, up to the limits of the transport. *)
From Verif Require Import Base OMap Json Types Util Db Mem Rdb Spec QueryFacts MemFacts MemHist Claims PropsMem Examples
  KeyFacts MsgPack PropsRdbIndex Proto ProtoFacts Wire WireFacts Server Transport PropsProto TextUtf8 RdbHist.
From Verif Require JsonText.

Set Implicit Arguments.
Local Open Scope list_scope.
Local Notation bytes := (list byte).

(** ** Limits, in terms of the API *)

(** The stages of a query above its source. *)
Fixpoint stages (q : query) : nat :=
  match q with
  | QPipe i _ _ _ | QPipeProperty i _ | QPipeWithPropertyPresence i _ _ | QPipeWithPropertyValue i _ _ _ | QInclude i | QCount i => S (stages i)
  | _ => 0
  end.
(** Messages inside the message of a query's source. *)
Fixpoint source_levels (q : query) : nat :=
  match q with
  | QAllVertex | QAllEdge | QRangeVertex _ None None | QSpecificVertex [] | QSpecificEdge [] => 1
  | QRangeVertex _ _ _ | QSpecificVertex _ | QVertexWithPropertyPresence _ | QVertexWithPropertyValue _ _
  | QEdgeWithPropertyPresence _ | QEdgeWithPropertyValue _ _ => 2
  | QSpecificEdge _ => 3
  | QPipe i _ _ _ | QPipeProperty i _ | QPipeWithPropertyPresence i _ _ | QPipeWithPropertyValue i _ _ _ | QInclude i | QCount i => source_levels i
  end.
Definition levels (q : query) : nat := 2 * stages q + source_levels q.
(** Limits are [u32]s. *)
Fixpoint limits_u32 (q : query) : Prop :=
  match q with
  | QRangeVertex l _ _ => (l < 2 ^ 32)%N
  | QPipe i _ l _ => limits_u32 i /\ (l < 2 ^ 32)%N
  | QPipeProperty i _ | QPipeWithPropertyPresence i _ _ | QPipeWithPropertyValue i _ _ _ | QInclude i | QCount i => limits_u32 i
  | _ => True
  end.

Lemma source_bounds q : 1 <= source_levels q <= 3.
Proof.
  induction q as [|l [t|] [u|]|[|x l]| | | |[|x l]| | | | | | | |]; cbn; lia.
Qed.

(** Sizes from below. *)
Lemma varint_some n : (1 <= lenN (varint n))%N.
Proof. unfold varint. cbn [varint_aux]. destruct (n <? 128)%N; unfold lenN; cbn [length]; lia. Qed.
Lemma put_len t b : (2 + lenN b <= lenN (put_field (t, WLen b)))%N.
Proof.
  unfold put_field. cbn [fst snd]. rewrite !lenN_app. pose proof (varint_some (8 * t + 2)). pose proof (varint_some (lenN b)). lia.
Qed.
Lemma wire_list_len {M} (e : M -> bytes) k l : (forall x, In x l -> k <= lenN (e x))%N -> ((2 + k) * lenN l <= lenN (wire (put_list 1 e l)))%N.
Proof.
  intros H. unfold wire, put_list. induction l as [|x l IH]; [cbn; lia|]. cbn [map flat_map]. rewrite lenN_app.
  pose proof (put_len 1 (e x)). pose proof (H x (or_introl eq_refl)).
  assert ((2 + k) * lenN l <= lenN (flat_map put_field (map (fun m => (1%N, WLen (e m))) l)))%N as IH' by (apply IH; intros; apply H; now right).
  replace (lenN (x :: l)) with (1 + lenN l)%N by (unfold lenN; cbn [length]; lia). lia.
Qed.
Lemma uuid_len u : (18 <= lenN (enc_uuid (to_uuid u)))%N.
Proof.
  unfold enc_uuid, to_uuid, wire. cbn [pu_value]. pose proof (ub_length u) as Lu. destruct (ub u) as [|y r] eqn:U; [discriminate|].
  cbn [put_bytes flat_map]. rewrite app_nil_r. pose proof (put_len 1 (y :: r)). unfold lenN in *. rewrite Lu in *. lia.
Qed.
Lemma vertex_len v : (22 <= lenN (enc_vertex (to_vertex v)))%N.
Proof.
  unfold enc_vertex, to_vertex, wire. cbn [pv_id pv_t put_opt app flat_map]. rewrite ?app_nil_r, !lenN_app.
  pose proof (put_len 1 (enc_uuid (to_uuid (vid v)))). pose proof (put_len 2 (enc_ident (to_ident (vt v)))).
  pose proof (uuid_len (vid v)). lia.
Qed.
Lemma edge_len e : (42 <= lenN (enc_edge (to_edge e)))%N.
Proof.
  unfold enc_edge, to_edge, wire. cbn [pe_outbound pe_t pe_inbound put_opt app flat_map]. rewrite ?app_nil_r, !lenN_app.
  pose proof (put_len 1 (enc_uuid (to_uuid (eout e)))). pose proof (put_len 2 (enc_ident (to_ident (et e)))). pose proof (put_len 3 (enc_uuid (to_uuid (ein e)))).
  pose proof (uuid_len (eout e)). pose proof (uuid_len (ein e)). lia.
Qed.

Section Wire.
  Variable alnum : N -> bool.
  Variable enc : json -> bytes.
  Variable dec : bytes -> option json.
  (** The JSON text is a Rust [String]. *)
  Hypothesis enc_utf8 : forall v, utf8_valid (enc v) = true.

  Lemma levels_exact q : lv_query (to_query enc q) = levels q.
  Proof.
    unfold levels. induction q as [|l [t|] [u|]|[|x l]| | | |[|x l]| | |i IH d l t|i IH n|i IH n b|i IH n v b|i IH|i IH]; cbn [to_query lv_query stages source_levels lv_opt option_map map]; try reflexivity.
    - unfold lv_list. cbn [map list_max]. change (list_max (S (zero (to_uuid x)) :: map (fun m => S (zero m)) (map to_uuid l)))
        with (Nat.max 1 (list_max (map (fun m => S (@zero puuid m)) (map to_uuid l)))).
      assert (list_max (map (fun m => S (@zero puuid m)) (map to_uuid l)) <= 1) as H; [|lia].
      apply list_max_le, Forall_forall. intros k Hk. apply in_map_iff in Hk as (y & <- & _). unfold zero. lia.
    - unfold lv_list. cbn [map].
      change (list_max (S (lv_edge (to_edge x)) :: map (fun m => S (lv_edge m)) (map to_edge l)))
        with (Nat.max 2 (list_max (map (fun m => S (lv_edge m)) (map to_edge l)))).
      assert (list_max (map (fun m => S (lv_edge m)) (map to_edge l)) <= 2) as H; [|lia].
      apply list_max_le, Forall_forall. intros k Hk. apply in_map_iff in Hk as (y & <- & Hy). apply in_map_iff in Hy as (z & <- & _).
      cbv. lia.
    - rewrite IH. pose proof (source_bounds i). destruct t; cbn; unfold zero; lia.
    - rewrite IH. pose proof (source_bounds i). destruct n; cbn; unfold zero; lia.
    - rewrite IH. pose proof (source_bounds i). unfold zero; lia.
    - rewrite IH. pose proof (source_bounds i). unfold zero; lia.
    - rewrite IH. lia.
    - rewrite IH. lia.
  Qed.

  Lemma ident_ok i : ident_utf8 (to_ident i).
  Proof. apply ib_utf8. Qed.
  Lemma json_ok v : json_utf8 (to_json enc v).
  Proof. apply enc_utf8. Qed.
  Lemma opt_ident_ok o : opt_ok ident_utf8 (option_map to_ident o).
  Proof. destruct o; [apply ident_ok|exact I]. Qed.
  Lemma query_sent_ok q : limits_u32 q -> query_ok (to_query enc q).
  Proof.
    induction q; cbn [limits_u32 to_query query_ok opt_ok]; intros L; repeat match goal with H : _ /\ _ |- _ => destruct H end;
      repeat split; auto using ident_ok, json_ok, opt_ident_ok.
    - apply Forall_forall. intros e He. apply in_map_iff in He as (x & <- & _). apply ident_ok.
    - destruct dir; cbn; lia.
    - destruct dir; cbn; lia.
  Qed.

  (** ** Queries *)

  (** A query that fits in a message arrives if and only if it is at most 100
      messages deep, and then it is the same query. *)
  Theorem C47_query q : limits_u32 q -> (lenN (enc_query (to_query enc q)) <= max_message)%N ->
    carry enc_query dec_query PQNone (to_query enc q) = if levels q <=? 100 then Some (to_query enc q) else None.
  Proof.
    intros L Sz. unfold carry, arrive. destruct (N.ltb_spec max_message (lenN (enc_query (to_query enc q)))) as [H|_]; [lia|].
    assert (small (enc_query (to_query enc q))) as Sm by (unfold small, max_message in *; lia).
    unfold decode. destruct (Nat.leb_spec (levels q) 100) as [D|D]; rewrite <- levels_exact in D.
    - apply query_reads; auto. now apply query_sent_ok.
    - apply query_deep; auto. now apply query_sent_ok.
  Qed.
  (** So 48 stages above any source arrive, 50 never do. *)
  Theorem C47_stages q : (stages q <= 48 -> levels q <= 100) /\ (50 <= stages q -> 100 < levels q).
  Proof. unfold levels. pose proof (source_bounds q). lia. Qed.

  (** Two queries never have the same bytes, however deep they are. *)
  Theorem C47_query_unambiguous q q' :
    sendable alnum enc dec (q_idents q) (q_values q) -> sendable alnum enc dec (q_idents q') (q_values q') ->
    limits_u32 q -> limits_u32 q' -> (lenN (enc_query (to_query enc q)) < 2 ^ 64)%N ->
    enc_query (to_query enc q) = enc_query (to_query enc q') -> q = q'.
  Proof.
    intros S1 S2 L1 L2 Sm E. eapply C33_injective; [exact S1|exact S2|].
    pose proof (@query_reads (to_query enc q) (Nat.max (lv_query (to_query enc q)) (lv_query (to_query enc q'))) (query_sent_ok _ L1) Sm ltac:(lia)) as R1.
    rewrite E in Sm. pose proof (@query_reads (to_query enc q') (Nat.max (lv_query (to_query enc q)) (lv_query (to_query enc q'))) (query_sent_ok _ L2) Sm ltac:(lia)) as R2.
    rewrite E in R1. congruence.
  Qed.

  (** ** Calls *)

  (** The numbers of the call fit their types, its queries are not too deep and
      its messages not too large. *)
  Definition call_limits (c : ccall) : Prop :=
    match c with
    | CGet q | CDelete q => limits_u32 q /\ levels q <= 100
    | CSetProperties q _ _ => limits_u32 q /\ levels q <= 99
    | CExecutePlugin name _ => utf8_valid name = true
    | _ => True
    end.
  Definition messages (w : wired) : list bytes :=
    match w with
    | WUnary _ b => [b]
    | WStream l => flat_map (fun x => match x with SOk b => [b] | SErr _ => [] end) l
    end.
  Definition call_sizes (c : ccall) : Prop := Forall (fun b => lenN b <= max_message)%N (messages (encode_request (send enc c))).

  Lemma carried {M} (decm : nat -> M -> bytes -> option M) dflt encm lv ok (R : reads decm dflt encm lv ok) m :
    ok m -> (lenN (encm m) <= max_message)%N -> (lv m <= 100)%nat -> arrive decm dflt (encm m) = Some m.
  Proof.
    intros O Sz L. unfold arrive. destruct (N.ltb_spec max_message (lenN (encm m))) as [H|_]; [lia|]. apply R; auto.
    unfold small, max_message in *. lia.
  Qed.
  Lemma lv_to_edge e : lv_edge (to_edge e) = 1.
  Proof. reflexivity. Qed.
  Lemma lv_to_vertex v : lv_vertex (to_vertex v) = 1.
  Proof. reflexivity. Qed.
  Lemma bulk_sent_ok it : bulk_ok (to_bulk enc it) /\ lv_bulk (to_bulk enc it) <= 3.
  Proof. destruct it; cbn; unfold zero; repeat split; auto using ident_ok, json_ok; lia. Qed.

  (** The server receives exactly the request the client sent. *)
  Theorem C47_request c : call_limits c -> call_sizes c ->
    decode_request (encode_request (send enc c)) = Some (send enc c).
  Proof.
    unfold call_sizes. intros L Sz. destruct c; cbn [send encode_request decode_request arrive_request messages call_limits] in *;
      try (apply Forall_inv in Sz).
    - reflexivity.
    - reflexivity.
    - rewrite (carried vertex_reads); auto; [apply ident_ok|rewrite lv_to_vertex; lia].
    - rewrite (carried ident_reads); auto; [apply ident_ok|lia].
    - rewrite (carried edge_reads); auto; [apply ident_ok|rewrite lv_to_edge; lia].
    - destruct L. rewrite (carried query_reads); auto; [now apply query_sent_ok|now rewrite levels_exact].
    - destruct L. rewrite (carried query_reads); auto; [now apply query_sent_ok|now rewrite levels_exact].
    - destruct L as [L1 L2]. rewrite (carried set_req_reads); auto.
      + unfold set_req_ok, to_set_req. cbn. repeat split; [now apply query_sent_ok|apply ident_ok|apply json_ok].
      + unfold lv_set_req, to_set_req, lv_opt, zero. cbn [psr_q psr_name psr_value]. rewrite levels_exact. lia.
    - do 2 f_equal. rewrite map_map. induction items as [|it items IH]; [reflexivity|]. cbn [map flat_map app] in *.
      apply Forall_cons_iff in Sz as [S1 S2]. rewrite IH by assumption. f_equal. unfold arrive_item.
      destruct (bulk_sent_ok it). rewrite (carried bulk_reads); auto. lia.
    - rewrite (carried index_req_reads); auto; [apply ident_ok|cbn; unfold zero; lia].
    - rewrite (carried plugin_req_reads); auto; [split; [assumption|apply json_ok]|cbn; unfold zero; lia].
  Qed.

  (** An answer all of whose messages are small enough. *)
  Definition out_size (v : outv) : N := lenN (enc_out (to_out enc v)).
  Definition fits (v : outv) : Prop := (out_size v <= max_message)%N /\ forall n, v = Count n -> (n < 2 ^ 64)%N.
  Lemma Forall_map_all {A B} (f : A -> B) (P : B -> Prop) l : (forall x, P (f x)) -> Forall P (map f l).
  Proof. intros H. apply Forall_forall. intros y Hy. apply in_map_iff in Hy as (x & <- & _). apply H. Qed.
  Lemma lv_list_le {M} (lv : M -> nat) l k : Forall (fun x => S (lv x) <= k) l -> lv_list lv l <= k.
  Proof.
    intros F. unfold lv_list. apply list_max_le, Forall_forall. intros y Hy. apply in_map_iff in Hy as (x & <- & Hx).
    rewrite Forall_forall in F. now apply F.
  Qed.
  Lemma nprop_sent_ok p : nprop_ok (to_nprop enc p) /\ lv_nprop (to_nprop enc p) = 1.
  Proof. repeat split; [apply ident_ok|apply json_ok]. Qed.
  Lemma vprops_sent_ok p : vprops_ok (to_vprops enc p) /\ lv_vprops (to_vprops enc p) <= 2.
  Proof.
    split; [split|].
    - apply ident_ok.
    - apply Forall_map_all. intros x. apply nprop_sent_ok.
    - unfold lv_vprops, to_vprops. cbn [pvs_vertex pvs_props lv_opt]. rewrite lv_to_vertex.
      assert (lv_list lv_nprop (map (to_nprop enc) (vp_props p)) <= 2); [|lia].
      apply lv_list_le, Forall_map_all. intros x. rewrite (proj2 (nprop_sent_ok x)). lia.
  Qed.
  Lemma eprops_sent_ok p : eprops_ok (to_eprops enc p) /\ lv_eprops (to_eprops enc p) <= 2.
  Proof.
    split; [split|].
    - apply ident_ok.
    - apply Forall_map_all. intros x. apply nprop_sent_ok.
    - unfold lv_eprops, to_eprops. cbn [pes_edge pes_props lv_opt]. rewrite lv_to_edge.
      assert (lv_list lv_nprop (map (to_nprop enc) (ep_props p)) <= 2); [|lia].
      apply lv_list_le, Forall_map_all. intros x. rewrite (proj2 (nprop_sent_ok x)). lia.
  Qed.
  Lemma out_sent_ok v : (forall n, v = Count n -> (n < 2 ^ 64)%N) -> out_ok (to_out enc v) /\ lv_out (to_out enc v) <= 4.
  Proof.
    intros C. destruct v as [l|l|n|l|l]; cbn [to_out out_ok lv_out].
    - split; [apply Forall_map_all; intros x; apply ident_ok|]. apply le_n_S, lv_list_le, Forall_map_all. intros x. rewrite lv_to_vertex. lia.
    - split; [apply Forall_map_all; intros x; apply ident_ok|]. apply le_n_S, lv_list_le, Forall_map_all. intros x. rewrite lv_to_edge. lia.
    - split; [now apply C|lia].
    - split; [apply Forall_map_all; intros x; apply vprops_sent_ok|]. apply le_n_S, lv_list_le, Forall_map_all. intros x.
      pose proof (proj2 (vprops_sent_ok x)). lia.
    - split; [apply Forall_map_all; intros x; apply eprops_sent_ok|]. apply le_n_S, lv_list_le, Forall_map_all. intros x.
      pose proof (proj2 (eprops_sent_ok x)). lia.
  Qed.
  (** The client receives exactly the value the server sent. *)
  Theorem C47_output v : fits v -> carry enc_out dec_out PONone (to_out enc v) = Some (to_out enc v).
  Proof. intros [Sz C]. destruct (out_sent_ok C). unfold carry. apply (carried out_reads); auto. lia. Qed.
  (** One that is too large is an error. *)
  Theorem C47_output_large v : (max_message < out_size v)%N -> carry enc_out dec_out PONone (to_out enc v) = None.
  Proof. intros L. unfold carry, arrive. unfold out_size in L. destruct (N.ltb_spec max_message (lenN (enc_out (to_out enc v)))); [reflexivity|lia]. Qed.

  Variables St Env : Type.
  Variable step : St -> Env * op -> outcome res * St.

  (** Responses that arrive unchanged. *)
  Definition response_fits (c : ccall) (r : srv response) : Prop :=
    match r with
    | SErr _ => True
    | SOk r =>
      match kind_of c, r with
      | KEmpty, RsEmpty => True
      | KCreated, RsCreated _ => True
      | KUuid, RsUuid u => exists x, u = to_uuid x
      | KStream, RsStream l => Forall (fun x => forall m, x = SOk m -> exists v, m = to_out enc v /\ fits v) l
      | KPlugin, RsPlugin (Some j) => exists v, j = to_json enc v /\ (lenN (enc_plugin_res (Some j)) <= max_message)%N
      | _, _ => False
      end
    end.
  Lemma response_same c r : response_fits c r -> carry_response c r = r.
  Proof.
    unfold response_fits, carry_response. destruct r as [r|s]; [|reflexivity].
    destruct (kind_of c), r as [|b|u|l|v]; intros F; try contradiction; cbn [encode_response decode_response]; try reflexivity.
    - unfold arrive, decode. rewrite created_reads. destruct b; reflexivity.
    - destruct F as (x & ->). rewrite (carried uuid_reads); auto; [|lia]. unfold enc_uuid, to_uuid, wire, put_field. cbn [pu_value].
      pose proof (ub_length x) as Lu. destruct (ub x) as [|y r] eqn:U; [discriminate|]. cbn [put_bytes flat_map fst snd]. rewrite app_nil_r.
      unfold lenN. rewrite !app_length, Lu. vm_compute. discriminate.
    - rewrite map_map. do 2 f_equal. induction F as [|x l Fx F IH]; [reflexivity|]. cbn [map]. rewrite IH. f_equal. destruct x as [m|s]; [|reflexivity].
      destruct (Fx m eq_refl) as (v & -> & Fv). apply C47_output in Fv. unfold carry in Fv. now rewrite Fv.
    - destruct v as [j|]; [|destruct F]. destruct F as (v & -> & Sz). rewrite (carried plugin_res_reads); auto; [apply json_ok|cbn; unfold zero; lia].
  Qed.

  Lemma wire_is_remote ps st env fresh c : call_limits c -> call_sizes c ->
    response_fits c (fst (serve alnum enc dec step ps st env fresh (send enc c))) ->
    remote_wire alnum enc dec step ps st env fresh c = remote alnum enc dec step ps st env fresh c.
  Proof.
    intros L Sz F. unfold remote_wire, serve_wire, remote. rewrite C47_request by assumption.
    destruct (serve alnum enc dec step ps st env fresh (send enc c)) as [r st']. cbn [fst] in F. now rewrite response_same.
  Qed.
  Lemma serve_fits ps st env fresh c o r st' :
    kinded step -> db_call fresh c = Some o -> sendable alnum enc dec (call_idents c) (call_values c) -> step st (env, o) = (r, st') ->
    (forall l, r = Ok (ROut l) -> Forall fits l) ->
    response_fits c (fst (serve alnum enc dec step ps st env fresh (send enc c))).
  Proof.
    intros K D S E A.
    assert (forall k, (forall x, r = Ok x -> response_fits c (SOk (k x))) -> response_fits c (fst (blocking step st env o k))) as B.
    { intros k Hk. unfold blocking. rewrite E. destruct r as [x|e|]; cbn [fst]; [now apply Hk|exact I|exact I]. }
    specialize (K st env o). rewrite E in K. cbn [fst] in K.
    destruct c; cbn [db_call] in D; try discriminate; inversion D; subst o; clear D;
      cbn [send serve call_idents call_values] in *.
    - apply B. intros; exact I.
    - destruct S as [S _]. apply Forall_inv in S. rewrite C33_vertex by assumption. cbn [converted]. apply B. intros x ->. destruct (K x eq_refl) as (b & ->). exact I.
    - destruct S as [S _]. apply Forall_inv in S. rewrite C33_identifier by assumption. cbn [converted]. apply B. intros x ->. destruct (K x eq_refl) as (u & ->). cbn. eauto.
    - destruct S as [S _]. apply Forall_inv in S. rewrite C33_edge by assumption. cbn [converted]. apply B. intros x ->. destruct (K x eq_refl) as (b & ->). exact I.
    - rewrite C33_query by assumption. cbn [converted]. rewrite E. cbn [fst]. destruct r as [x|e|]; cbn [response_fits kind_of].
      + assert (Forall fits (outputs x)) as F by (destruct x; try constructor; now apply A).
        apply Forall_forall. intros y Hy m ->. apply in_map_iff in Hy as (v & E1 & Hv). inversion E1. subst m. exists v. split; [reflexivity|].
        rewrite Forall_forall in F. now apply F.
      + constructor; [|constructor]. discriminate.
      + constructor.
    - rewrite C33_query by assumption. cbn [converted]. apply B. intros; exact I.
    - rewrite C33_set_properties_request by assumption. cbn [converted]. apply B. intros; exact I.
    - rewrite bulk_all by assumption. apply B. intros; exact I.
    - destruct S as [S _]. apply Forall_inv in S. rewrite C33_index_request by assumption. cbn [converted]. apply B. intros; exact I.
  Qed.

  (** A call within the limits, sent and answered as bytes, is the local call. *)
  Theorem C47_remote_is_local_partial ps st env fresh c o r st' :
    kinded step -> db_call fresh c = Some o -> sendable alnum enc dec (call_idents c) (call_values c) ->
    call_limits c -> call_sizes c -> step st (env, o) = (r, st') ->
    (forall l, r = Ok (ROut l) -> Forall (sendable_out alnum enc dec) l /\ Forall fits l) ->
    exists a, remote_wire alnum enc dec step ps st env fresh c = (a, st') /\ reports c r a.
  Proof.
    intros K D S L Sz E A. rewrite wire_is_remote; auto.
    - eapply C35_remote_is_local_partial; eauto. intros l Hl. now apply A.
    - eapply serve_fits; eauto. intros l Hl. now apply A.
  Qed.
  (** Plugin calls. *)
  Theorem C47_plugin_partial ps st env fresh name arg p r st' :
    text_ok enc dec arg -> utf8_valid name = true -> call_sizes (CExecutePlugin name arg) ->
    find_plugin name ps = Some p -> p st arg = (r, st') ->
    (forall v, r = Ok v -> text_ok enc dec v /\ (lenN (enc_plugin_res (Some (to_json enc v))) <= max_message)%N) ->
    remote_wire alnum enc dec step ps st env fresh (CExecutePlugin name arg) =
      (match r with Ok v => ClOk (AJson v) | Err e => ClErr (CGrpc (SInternal (BecausePlugin e))) | Panic => ClErr (CGrpc STransport) end, st').
  Proof.
    intros T U Sz F E A. rewrite wire_is_remote; auto.
    - eapply C35_plugin_partial; eauto. intros v Hv. now apply A.
    - cbn [send serve]. rewrite C33_json by assumption. cbn [converted]. rewrite F, E. destruct r as [v|e|]; cbn; auto.
      exists v. split; [reflexivity|]. now apply A.
  Qed.

  (** Whole sessions. *)
  Fixpoint wire_trace (ps : plugins St) (st : St) (cs : list (Env * uuid * ccall)) : list (cl answer) * St :=
    match cs with
    | [] => ([], st)
    | (env, fresh, c) :: cs' =>
      let (a, st') := remote_wire alnum enc dec step ps st env fresh c in
      let (l, st'') := wire_trace ps st' cs' in (a :: l, st'')
    end.
  Definition fitting_answer (r : outcome res) : Prop := forall l, r = Ok (ROut l) -> Forall (sendable_out alnum enc dec) l /\ Forall fits l.
  Theorem C47_session_partial ps cs : forall st os,
    kinded step -> as_calls cs os -> all_sendable alnum enc dec cs ->
    Forall (fun x => call_limits (snd x) /\ call_sizes (snd x)) cs ->
    Forall fitting_answer (fst (local_trace step st os)) ->
    Forall2 (fun x p => reports (snd x) (fst p) (snd p)) cs (combine (fst (local_trace step st os)) (fst (wire_trace ps st cs))) /\
    snd (wire_trace ps st cs) = snd (local_trace step st os).
  Proof.
    unfold as_calls, all_sendable. induction cs as [|[[env fresh] c] cs IH]; intros st os K F S L A; inversion F as [|? [env' o] ? os' [Ee Eo] F']; subst.
    - cbn. split; [constructor|reflexivity].
    - cbn [fst snd] in Ee, Eo. subst env'. apply Forall_cons_iff in S as [S1 S2]. apply Forall_cons_iff in L as [[L1 Z1] L2].
      cbn [local_trace wire_trace] in *. destruct (step st (env, o)) as [r st'] eqn:E.
      destruct (local_trace step st' os') as [rs st''] eqn:T. cbn [fst snd] in *. apply Forall_cons_iff in A as [A1 A2].
      destruct (@C47_remote_is_local_partial ps st env fresh c o r st' K Eo S1 L1 Z1 E A1) as (a & -> & R).
      specialize (IH st' os' K F' S2 L2). rewrite T in IH. destruct (IH A2) as [IH1 IH2].
      destruct (wire_trace ps st' cs) as [ans st3]. cbn [fst snd combine] in *. split; [|assumption].
      constructor; [exact R|assumption].
  Qed.

  (** ** Beyond the limits *)

  (** A query that is too deep never reaches the database: [get], [delete] and
      [set_properties] fail and change nothing, although the same calls work on a
      local database. *)
  Theorem C47_deep_refuted ps st env fresh q : limits_u32 q -> (lenN (enc_query (to_query enc q)) <= max_message)%N -> 50 <= stages q ->
    remote_wire alnum enc dec step ps st env fresh (CGet q) = (ClErr (CGrpc STransport), st) /\
    remote_wire alnum enc dec step ps st env fresh (CDelete q) = (ClErr (CGrpc STransport), st).
  Proof.
    intros L Sz D. apply C47_stages in D. apply C47_query in Sz; [|assumption]. destruct (Nat.leb_spec (levels q) 100) as [H|_]; [lia|].
    unfold remote_wire, serve_wire. cbn [send encode_request decode_request arrive_request]. unfold carry in Sz. rewrite Sz. auto.
  Qed.
  Theorem C47_deep_set_refuted ps st env fresh q n v : limits_u32 q -> 50 <= stages q ->
    remote_wire alnum enc dec step ps st env fresh (CSetProperties q n v) = (ClErr (CGrpc STransport), st).
  Proof.
    intros L D. apply C47_stages in D.
    unfold remote_wire, serve_wire. cbn [send encode_request decode_request arrive_request]. unfold arrive.
    destruct (N.ltb_spec max_message (lenN (enc_set_req (to_set_req enc (q, n, v))))) as [H|H]; [reflexivity|].
    unfold decode. rewrite set_req_deep; [reflexivity| | |].
    - unfold set_req_ok, to_set_req. cbn. repeat split; [now apply query_sent_ok|apply ident_ok|apply json_ok].
    - unfold small, max_message in *. lia.
    - unfold to_set_req, recursion_limit. cbn [psr_q lv_opt]. rewrite levels_exact. lia.
  Qed.
  (** A request with a message that is too large changes nothing. *)
  Theorem C47_large_request ps st env fresh c : Exists (fun b => max_message < lenN b)%N (messages (encode_request (send enc c))) ->
    exists s, remote_wire alnum enc dec step ps st env fresh c = (ClErr (CGrpc s), st).
  Proof.
    intros X. unfold remote_wire, serve_wire. assert (forall b, (max_message < lenN b)%N -> forall M (d : nat -> M -> bytes -> option M) m, arrive d m b = None) as N.
    { intros b Lb M d m. unfold arrive. destruct (N.ltb_spec max_message (lenN b)); [reflexivity|lia]. }
    destruct c; cbn [send encode_request decode_request messages] in *;
      try (inversion X as [? ? X1|? ? X1]; subst; [|inversion X1]; cbn [arrive_request]; rewrite N by assumption; eexists; reflexivity).
    cbn [serve]. rewrite map_map in X. rewrite !map_map.
    assert (exists s, read_stream alnum dec (map (fun it => arrive_item (enc_bulk (to_bulk enc it))) items) = SErr s) as (s & ->).
    { induction items as [|it items IH]; cbn [map flat_map app] in X; [inversion X|]. cbn [map read_stream]. apply Exists_cons in X as [X|X].
      - unfold arrive_item at 1. rewrite N by assumption. eauto.
      - destruct (IH X) as (s & E). unfold arrive_item at 1. destruct (arrive _ _ _) as [x|]; [|eauto].
        destruct (of_bulk alnum dec x) as [a|e]; [|eauto]. rewrite E. eauto. }
    eexists. reflexivity.
  Qed.

  Lemma receive_large l : Exists (fun v => max_message < out_size v)%N l ->
    exists e, receive_all alnum dec (map (fun x => or_status (carry enc_out dec_out PONone (to_out enc x))) l) = ClErr e.
  Proof.
    induction 1 as [v l L|v l X IH]; cbn [map receive_all].
    - rewrite C47_output_large by assumption. cbn. eauto.
    - destruct (carry enc_out dec_out PONone (to_out enc v)) as [m|]; cbn [or_status]; [|eauto].
      destruct (of_out alnum dec m) as [w|e]; [|eauto]. destruct IH as (e & ->). eauto.
  Qed.
  (** An answer that is too large is computed by the server and lost: the client
      gets an error where the local call gives the values. *)
  Theorem C47_large_answer_refuted ps st env fresh q l st' :
    sendable alnum enc dec (q_idents q) (q_values q) -> call_limits (CGet q) -> call_sizes (CGet q) ->
    step st (env, OGet q) = (Ok (ROut l), st') ->
    Exists (fun v => max_message < out_size v)%N l ->
    exists e, remote_wire alnum enc dec step ps st env fresh (CGet q) = (ClErr e, st').
  Proof.
    intros S L Sz E X. unfold remote_wire, serve_wire. rewrite C47_request by assumption. cbn [send serve].
    rewrite C33_query by assumption. cbn [converted]. rewrite E. cbn [outputs carry_response receive kind_of encode_response decode_response].
    rewrite !map_map. destruct (receive_large X) as (e & Er). unfold carry in Er. rewrite Er. eauto.
  Qed.

  (** ** Any bytes whatsoever *)

  (** Whatever bytes arrive, for whatever method, either the call fails and
      changes nothing, or they are the bytes of a well-formed request (whose
      required fields are present and valid). *)
  Theorem C47_garbage ps st env fresh w :
    (exists s, serve_wire alnum enc dec step ps st env fresh w = (SErr s, st)) \/
    (exists rq, decode_request w = Some rq /\ wf_request alnum dec rq /\
                serve_wire alnum enc dec step ps st env fresh w = serve alnum enc dec step ps st env fresh rq).
  Proof using Type.
    unfold serve_wire. destruct (decode_request w) as [rq|]; [|left; eauto].
    assert (wf_request alnum dec rq \/ ~ wf_request alnum dec rq) as [W|W].
    { assert (forall A (x : cres A), accepted x \/ ~ accepted x) as Dx.
      { intros A [a|e]; [left; unfold accepted; eauto|right; intros (a & ?); discriminate]. }
      destruct rq; cbn [wf_request]; auto.
      - rewrite <- acc_vertex. apply Dx.
      - rewrite <- acc_ident. apply Dx.
      - rewrite <- acc_edge. apply Dx.
      - rewrite <- acc_query. apply Dx.
      - rewrite <- acc_query. apply Dx.
      - rewrite <- acc_set_req. apply Dx.
      - induction items as [|[it|s] items IH]; [auto| |].
        + destruct (Dx _ (of_bulk alnum dec it)) as [X|X].
          * destruct IH as [IH|IH]; [left; constructor; [|assumption]; exists it; split; [reflexivity|]; now apply acc_bulk|right].
            intros F. apply IH. now inversion F.
          * right. intros F. apply Forall_inv in F as (y & Ey & Wy). inversion Ey; subst. apply X. now apply acc_bulk.
        + right. intros F. apply Forall_inv in F as (y & Ey & _). discriminate.
      - rewrite <- acc_index_req. apply Dx.
      - destruct arg as [a|]; [|left; intros b Eb; discriminate]. destruct (Dx _ (of_json dec a)) as [X|X].
        + left. intros b Eb. inversion Eb; subst. now apply acc_json.
        + right. intros F. apply X, acc_json, F. reflexivity. }
    - right. eauto.
    - left. assert ((exists items, rq = RqBulkInsert items) \/ (forall items, rq <> RqBulkInsert items)) as [(items & ->)|NB]
        by (destruct rq; try (right; discriminate); left; eauto).
      + destruct (@C34_bulk_all_or_nothing alnum enc dec _ _ step ps st env fresh items W) as (s & E & _). eauto.
      + destruct (@C34_malformed alnum enc dec _ _ step ps st env fresh rq NB W) as (e & E). eauto.
  Qed.

  (** A query with a field added by a later version of the protocol (a number
      this one does not use) is read as the query without it. *)
  Theorem C47_query_extended q t v : (16 <= t < 2 ^ 28)%N ->
    match v with WVar n => (n < 2 ^ 64)%N | WLen _ => True | WOther => False end ->
    (lenN (enc_query (to_query enc q) ++ put_field (t, v)) <= max_message)%N ->
    arrive dec_query PQNone (enc_query (to_query enc q) ++ put_field (t, v)) = arrive dec_query PQNone (enc_query (to_query enc q)).
  Proof using Type.
    intros T V Sz. unfold arrive.
    assert (lenN (enc_query (to_query enc q)) <= lenN (enc_query (to_query enc q) ++ put_field (t, v)))%N as Le by (rewrite lenN_app; apply N.le_add_r).
    destruct (N.ltb_spec max_message (lenN (enc_query (to_query enc q) ++ put_field (t, v)))) as [H|_]; [now apply N.le_ngt in Sz|].
    destruct (N.ltb_spec max_message (lenN (enc_query (to_query enc q)))) as [H|_]; [now apply (N.le_trans _ _ _ Le), N.le_ngt in Sz|].
    assert (exists l, enc_query (to_query enc q) = wire l /\ Forall field_shape l) as (l & El & F).
    { destruct q; cbn [to_query enc_query]; eexists; (split; [reflexivity|]); repeat constructor; discriminate. }
    assert (wire l ++ put_field (t, v) = wire (l ++ [(t, v)])) as E. { unfold wire. rewrite flat_map_app. cbn. now rewrite app_nil_r. }
    rewrite El in *. rewrite E in *. unfold decode, recursion_limit. apply query_unknown; [apply T| |].
    - apply Forall_app. split; [assumption|]. repeat constructor; cbn [fst snd]; [|apply T|assumption]. destruct T. eapply N.le_trans; [|eassumption]. discriminate.
    - unfold small. eapply N.le_lt_trans; [exact Sz|reflexivity].
  Qed.
End Wire.

(** ** A database that cannot be listed remotely *)

(** This happens from 174763 vertices or 95326 edges in one answer on: they
    take at least 24 and 44 bytes each. *)
Theorem C47_vertices_large enc l : (174763 <= lenN l)%N -> (max_message < out_size enc (Vertices l))%N.
Proof.
  intros L. unfold out_size, to_out, enc_out. unfold wire at 1. cbn [flat_map]. rewrite app_nil_r.
  match goal with |- (_ < lenN (put_field (?t, WLen ?b)))%N => pose proof (put_len t b) as P end.
  pose proof (@wire_list_len _ enc_vertex 22 (map to_vertex l)) as W.
  assert (24 * lenN (map to_vertex l) <= lenN (wire (put_list 1 enc_vertex (map to_vertex l))))%N as W'.
  { apply W. intros x Hx. apply in_map_iff in Hx as (v & <- & Hv). apply vertex_len. }
  replace (lenN (map to_vertex l)) with (lenN l) in W' by (unfold lenN; now rewrite map_length). unfold max_message. lia.
Qed.
Theorem C47_edges_large enc l : (95326 <= lenN l)%N -> (max_message < out_size enc (Edges l))%N.
Proof.
  intros L. unfold out_size, to_out, enc_out. unfold wire at 1. cbn [flat_map]. rewrite app_nil_r.
  match goal with |- (_ < lenN (put_field (?t, WLen ?b)))%N => pose proof (put_len t b) as P end.
  pose proof (@wire_list_len _ enc_edge 42 (map to_edge l)) as W.
  assert (44 * lenN (map to_edge l) <= lenN (wire (put_list 1 enc_edge (map to_edge l))))%N as W'.
  { apply W. intros x Hx. apply in_map_iff in Hx as (v & <- & Hv). apply edge_len. }
  replace (lenN (map to_edge l)) with (lenN l) in W' by (unfold lenN; now rewrite map_length). unfold max_message. lia.
Qed.

Definition uuid_at (k : N) : uuid := exist _ (be_bytes 16 k) (proj2 (Nat.eqb_eq _ _) (be_len 16 k)).
Definition vertex_at (k : nat) : vertex := Vertex (uuid_at (N.of_nat k)) t_person.
Definition crowd (n : nat) : list vertex := map vertex_at (seq 0 n).
Definition crowd_calls (n : nat) : list (order * op) := map (fun v => (id_order, OCreateVertex v)) (crowd n).

Lemma vertex_at_inj i j : (N.of_nat i < 2 ^ 32)%N -> (N.of_nat j < 2 ^ 32)%N -> vid (vertex_at i) = vid (vertex_at j) -> i = j.
Proof.
  intros Li Lj E. apply (f_equal ub) in E. cbn [vertex_at vid uuid_at ub proj1_sig] in E. apply be_bytes_eq in E.
  change (256 ^ N.of_nat 16)%N with (2 ^ 128)%N in E. rewrite !N.mod_small in E by lia. lia.
Qed.
Lemma crowd_run dbg n : (N.of_nat n < 2 ^ 32)%N -> exists m, mem_run dbg (crowd_calls n) = Some m /\
  forall v, is_vertex (gof m) v <-> In v (crowd n).
Proof.
  induction n as [|n IH]; intros L.
  - exists mem_empty. split; [reflexivity|]. intros v. split; [|intros []]. unfold is_vertex. rewrite gof_empty. cbn. discriminate.
  - destruct IH as (m & Hm & M); [lia|]. unfold crowd_calls, crowd in *. rewrite seq_S, !map_app. cbn [map Nat.add]. rewrite mem_run_snoc, Hm.
    cbn [mem_step fst snd]. destruct (exec (mem_ops dbg id_order) m (OCreateVertex (vertex_at n))) as [r m'] eqn:E.
    destruct (@C02_mem_create_vertex dbg _ m Hm id_order (vertex_at n) r m' E) as [[-> C]|[_ [(t & T) _]]].
    + exists m'. split; [reflexivity|]. intros v. rewrite in_app_iff. cbn [In]. rewrite <- M.
      unfold is_vertex in *. rewrite (vc_vertices C). destruct (eqb (vid v) (vid (vertex_at n))) eqn:B.
      * apply eqb_eq in B. split.
        -- intros T. right. left. destruct v as [i t]. cbn in *. inversion T. subst. reflexivity.
        -- intros [T|[<-|[]]]; [|reflexivity]. rewrite B in T. rewrite (vc_new C) in T. discriminate.
      * split; [auto|]. intros [T|[<-|[]]]; [assumption|]. exfalso. pose proof (eqb_refl (vid (vertex_at n))). congruence.
    + exfalso. assert (is_vertex (gof m) (Vertex (vid (vertex_at n)) t)) as X by exact T. apply M, in_map_iff in X as (k & Ek & Hk).
      apply in_seq in Hk. apply (f_equal vid) in Ek. cbn [vid] in Ek.
      assert (k = n) as -> by (apply vertex_at_inj; [lia|lia|exact Ek]). lia.
Qed.
Lemma crowd_NoDup n : (N.of_nat n < 2 ^ 32)%N -> NoDup (crowd n).
Proof.
  intros L. unfold crowd. assert (forall l, (forall k, In k l -> (k < n)%nat) -> NoDup l -> NoDup (map vertex_at l)) as G.
  { induction l as [|a l IH]; intros B ND; [constructor|]. inversion ND; subst. cbn [map]. constructor.
    - intros X. apply in_map_iff in X as (b & E & Hb). apply (f_equal vid) in E. pose proof (B a (or_introl eq_refl)). pose proof (B b (or_intror Hb)).
      apply vertex_at_inj in E; [subst; auto|lia|lia].
    - apply IH; [|assumption]. intros k Hk. apply B. now right. }
  apply G; [|apply seq_NoDup]. intros k Hk. apply in_seq in Hk. lia.
Qed.

(** From 174763 created vertices on, [get] of all vertices succeeds on the
    in-memory database itself and fails through the server. *)
Theorem C47_listing_refuted alnum enc dec dbg ps ord fresh n : (forall v, utf8_valid (enc v) = true) -> (174763 <= N.of_nat n < 2 ^ 32)%N ->
  let st := mem_run dbg (crowd_calls n) in
  (exists l, mem_step dbg st (ord, OGet QAllVertex) = (Ok (ROut [Vertices l]), st) /\ lenN l = N.of_nat n) /\
  (exists e, remote_wire alnum enc dec (mem_step dbg) ps st ord fresh (CGet QAllVertex) = (ClErr e, st)).
Proof.
  intros U [L1 L2]. cbv zeta. destruct (crowd_run dbg n L2) as (m & Hm & M). rewrite Hm.
  assert (exists l, mem_step dbg (Some m) (ord, OGet QAllVertex) = (Ok (ROut [Vertices l]), Some m) /\ lenN l = N.of_nat n) as (l & E & Ll).
  { cbn [mem_step fst snd exec]. destruct (@C08_mem_query dbg _ m Hm ord QAllVertex eq_refl) as [(ex & v & G & EV)|[(e & _ & F)|(_ & B)]].
    - inversion EV as [l Hl| | | | | | | | | | | | | | | | | | ]; subst. exists l. split; [now rewrite G|].
      destruct Hl as [So In_l]. unfold lenN. f_equal. rewrite <- (seq_length n 0), <- (map_length vertex_at (seq 0 n)). 
      apply Nat.le_antisymm; apply NoDup_incl_length.
      + exact (sorted_NoDup vlt_irrefl So).
      + intros v Hv. apply M, In_l, Hv.
      + now apply crowd_NoDup.
      + intros v Hv. apply In_l, M, Hv.
    - inversion F; discriminate.
    - inversion B; discriminate. }
  split; [eauto|]. eapply C47_large_answer_refuted; eauto.
  - split; constructor.
  - split; [exact I|]. cbn. lia.
  - constructor; [|constructor]. vm_compute. discriminate.
  - left. apply C47_vertices_large. lia.
Qed.

(** ** Whole sessions on the two backends *)
Section Backends.
  Variable alnum : N -> bool.
  Variable enc : json -> bytes.
  Variable dec : bytes -> option json.
  Hypothesis enc_utf8 : forall v, utf8_valid (enc v) = true.

  (** An answer whose messages are within the receiver's limit. *)
  Definition small_answer (r : outcome res) : Prop := forall l, r = Ok (ROut l) -> Forall (fits enc) l.
  Lemma fitting r : sendable_answer alnum enc dec r -> small_answer r -> fitting_answer alnum enc dec r.
  Proof. intros A B l E. split; [now apply A|now apply B]. Qed.
  Lemma fitting_all l : Forall (sendable_answer alnum enc dec) l -> Forall small_answer l -> Forall (fitting_answer alnum enc dec) l.
  Proof.
    intros A B. apply Forall_forall. intros r H. rewrite Forall_forall in A, B. apply fitting; auto.
  Qed.
  Definition within_limits {Env} (cs : list (Env * uuid * ccall)) : Prop :=
    Forall (fun x => call_limits (snd x) /\ call_sizes enc (snd x)) cs.

  (** A server over a fresh in-memory database (debug build), everything sent as
      bytes: the session is the local session. *)
  Theorem C47_memory_session_partial ps cs os :
    as_calls cs os -> all_sendable alnum enc dec cs -> within_limits cs -> tidy_history true os ->
    Forall small_answer (fst (local_trace (mem_step true) (Some mem_empty) os)) ->
    Forall2 (fun x p => reports (snd x) (fst p) (snd p)) cs
            (combine (fst (local_trace (mem_step true) (Some mem_empty) os))
                     (fst (wire_trace alnum enc dec (mem_step true) ps (Some mem_empty) cs))) /\
    snd (wire_trace alnum enc dec (mem_step true) ps (Some mem_empty) cs) = mem_run true os.
  Proof.
    intros F S L T A. pose proof (sendable_ops F S) as C.
    destruct (@C47_session_partial alnum enc dec enc_utf8 _ _ (mem_step true) ps cs (Some mem_empty) os (@mem_kinded true) F S L) as [R1 R2].
    - apply fitting_all; [|assumption]. apply (@mem_answers alnum enc dec os []); assumption.
    - split; [assumption|]. rewrite R2. clear. unfold mem_run. generalize (Some mem_empty) as st.
      induction os as [|x os IH]; intros st; [reflexivity|]. cbn [local_trace fold_left]. rewrite <- IH.
      destruct (mem_step true st x) as [r st']. cbn [snd]. destruct (local_trace (mem_step true) st' os). reflexivity.
  Qed.

  (** Over a fresh RocksDB database. *)
  Theorem C47_rocksdb_session_partial H ps cs os :
    as_calls cs os -> all_sendable alnum enc dec cs -> within_limits cs -> rtidy_history H enc dec os ->
    Forall small_answer (fst (local_trace (rdb_step H enc dec) rdb_empty os)) ->
    Forall2 (fun x p => reports (snd x) (fst p) (snd p)) cs
            (combine (fst (local_trace (rdb_step H enc dec) rdb_empty os))
                     (fst (wire_trace alnum enc dec (rdb_step H enc dec) ps rdb_empty cs))) /\
    snd (wire_trace alnum enc dec (rdb_step H enc dec) ps rdb_empty cs) = rdb_run H enc dec os.
  Proof.
    intros F S L T A. pose proof (sendable_ops F S) as C.
    destruct (@C47_session_partial alnum enc dec enc_utf8 _ _ (rdb_step H enc dec) ps cs rdb_empty os (@rdb_kinded H enc dec) F S L) as [R1 R2].
    - apply fitting_all; [|assumption]. apply (@rdb_answers alnum enc dec H os []); assumption.
    - split; [assumption|]. rewrite R2. clear. unfold rdb_run. generalize rdb_empty as st.
      induction os as [|x os IH]; intros st; [reflexivity|]. cbn [local_trace fold_left]. rewrite <- IH.
      destruct (rdb_step H enc dec st x) as [r st']. cbn [snd]. destruct (local_trace (rdb_step H enc dec) st' os). reflexivity.
  Qed.
End Backends.

(** The JSON texts serde_json writes are strings, if the texts of floats are. *)
Theorem C47_json_text fmt v : (forall b, utf8_valid (fmt b) = true) -> utf8_valid (JsonText.to_text fmt v) = true.
Proof. intros F. now apply to_text_utf8. Qed.

(** ** Concrete cases *)

(** Bytes taken from the protocol buffers encoding guide and by hand: the
    number 150; a query for the edges out of a vertex, one at most. *)
Example C47_varint_case : varint 150 = [x96; x01] /\ enc_out (POCount 150) = [x18; x96; x01].
Proof. split; vm_compute; reflexivity. Qed.
Example C47_bytes_case :
  enc_query (to_query enc0 (QPipe (QSpecificVertex [u1]) Inbound 1 (Some t_likes))) =
    [x52; x25] ++ ([x0a; x16] ++ [x1a; x14] ++ [x0a; x12] ++ [x0a; x10] ++ ub u1) ++
    [x10; x01] ++ [x18; x01] ++ [x22; x07] ++ [x0a; x05] ++ ib t_likes.
Proof. vm_compute. reflexivity. Qed.

Lemma enc0_utf8 v : utf8_valid (enc0 v) = true.
Proof.
  unfold enc0. destruct (proj1_sig v) as [|[]| | | | |l|]; try reflexivity. destruct l as [|a [|b [|c l]]]; reflexivity.
Qed.
(** The session of PropsProto.v is within the limits, and is answered over the
    wire as before. *)
Example C47_session_case :
  Forall (fun x => call_limits (snd x) /\ call_sizes enc0 (snd x)) (with_env id_order s_calls) /\
  nth_error (fst (wire_trace alnum0 enc0 dec0 (mem_step true) [] (Some mem_empty) (with_env id_order s_calls))) 5 =
    Some (ClOk (AValues [Vertices [v1]])) /\
  nth_error (fst (wire_trace alnum0 enc0 dec0 (rdb_step hash0 enc0 dec0) [] rdb_empty (with_env ok_env s_calls))) 5 =
    Some (ClOk (AValues [Vertices [v1]])).
Proof.
  split; [|split; vm_compute; reflexivity].
  repeat (apply Forall_cons; [split; [repeat split; cbn; lia|repeat constructor; vm_compute; discriminate]|]). apply Forall_nil.
Qed.

(** Fifty pipes: answered by the database, refused by the transport.  Forty-nine
    pass. *)
Definition hops (n : nat) : query := Nat.iter n (fun q => QPipe q (if Nat.even n then Outbound else Inbound) 1 None) QAllVertex.
Example C47_deep_case :
  stages (hops 50) = 50 /\ limits_u32 (hops 50) /\ (lenN (enc_query (to_query enc0 (hops 50))) <= max_message)%N /\
  fst (mem_step true (Some mem_empty) (id_order, OGet (hops 50))) = Ok (ROut [Vertices []]) /\
  fst (remote_wire alnum0 enc0 dec0 (mem_step true) [] (Some mem_empty) id_order u1 (CGet (hops 50))) = ClErr (CGrpc STransport) /\
  fst (remote_wire alnum0 enc0 dec0 (mem_step true) [] (Some mem_empty) id_order u1 (CGet (hops 49))) = ClOk (AValues [Edges []]).
Proof.
  conj; try (vm_compute; reflexivity); [|vm_compute; discriminate]. cbn [hops Nat.iter nat_rect limits_u32]. repeat split; lia.
Qed.
