(** * C53, continued: what each message of the published protocol means.

    C53 says that client and server agree with the schema on which bytes are
    which message.  Here: which message, by the schema's own field names, each
    call and each result is.  The tables below are written from indradb.proto and
    the library's types alone. *)
From Coq Require Import String.
From Verif Require Import Base OMap Json Types Util Db Mem Proto ProtoFacts MemFacts Wire WireFacts Server Transport Examples PropsMemIndex PropsRdbIndex PropsProto PropsWire
  Schema SchemaFacts SchemaMessages Service PropsSchema.

Set Implicit Arguments.
Local Open Scope string_scope.
Local Open Scope list_scope.
Local Notation bytes := (list byte).

(** ** Specification *)
Section Tables.
  Variable enc : json -> bytes.

  (** proto/indradb.proto 233-236. *)
  Definition direction_names : list (string * Z) := [("OUTBOUND", 0%Z); ("INBOUND", 1%Z)].
  Definition direction_name (d : direction) : string := match d with Outbound => "OUTBOUND" | Inbound => "INBOUND" end.
  Definition named_number (n : string) : Z := match find (fun x => fst x =? n)%string direction_names with Some x => snd x | None => 0%Z end.

  (** A field with its type's default value is absent (proto3). *)
  Definition present (n : string) (v : dval) : list (string * dval) :=
    match v with DText [] | DNum 0 | DInt 0 => [] | _ => [(n, v)] end.
  Definition opt {A} (n : string) (f : A -> dval) (o : option A) : list (string * dval) := match o with Some x => [(n, f x)] | None => [] end.
  Definition all {A} (n : string) (f : A -> dval) (l : list A) : list (string * dval) := map (fun x => (n, f x)) l.

  (** The 16 bytes of a UUID, most significant first; the text of an identifier;
      the JSON text of a value. *)
  Definition m_uuid (u : uuid) : dval := DMsg [("value", DText (ub u))].
  Definition m_ident (i : ident) : dval := DMsg (present "value" (DText (ib i))).
  Definition m_json (v : json) : dval := DMsg (present "value" (DText (enc v))).
  Definition m_vertex (v : vertex) : dval := DMsg [("id", m_uuid (vid v)); ("t", m_ident (vt v))].
  Definition m_edge (e : edge) : dval := DMsg [("outbound_id", m_uuid (eout e)); ("t", m_ident (et e)); ("inbound_id", m_uuid (ein e))].
  Definition m_flag (n : string) (b : bool) := present n (DNum (if b then 1 else 0)%N).
  Fixpoint m_query (q : query) : dval :=
    match q with
    | QAllVertex => DMsg [("all_vertex", DMsg [])]
    | QRangeVertex limit t start => DMsg [("range_vertex", DMsg (present "limit" (DNum limit) ++ opt "t" m_ident t ++ opt "start_id" m_uuid start))]
    | QSpecificVertex ids => DMsg [("specific_vertex", DMsg (all "ids" m_uuid ids))]
    | QVertexWithPropertyPresence n => DMsg [("vertex_with_property_presence", DMsg [("name", m_ident n)])]
    | QVertexWithPropertyValue n v => DMsg [("vertex_with_property_value", DMsg [("name", m_ident n); ("value", m_json v)])]
    | QAllEdge => DMsg [("all_edge", DMsg [])]
    | QSpecificEdge es => DMsg [("specific_edge", DMsg (all "edges" m_edge es))]
    | QEdgeWithPropertyPresence n => DMsg [("edge_with_property_presence", DMsg [("name", m_ident n)])]
    | QEdgeWithPropertyValue n v => DMsg [("edge_with_property_value", DMsg [("name", m_ident n); ("value", m_json v)])]
    | QPipe i d limit t =>
      DMsg [("pipe", DMsg ([("inner", m_query i)] ++ present "direction" (DInt (named_number (direction_name d))) ++ present "limit" (DNum limit) ++ opt "t" m_ident t))]
    | QPipeProperty i n => DMsg [("pipe_property", DMsg ([("inner", m_query i)] ++ opt "name" m_ident n))]
    | QPipeWithPropertyPresence i n b => DMsg [("pipe_with_property_presence", DMsg ([("inner", m_query i); ("name", m_ident n)] ++ m_flag "exists" b))]
    | QPipeWithPropertyValue i n v b =>
      DMsg [("pipe_with_property_value", DMsg ([("inner", m_query i); ("name", m_ident n); ("value", m_json v)] ++ m_flag "equal" b))]
    | QInclude i => DMsg [("include", DMsg [("inner", m_query i)])]
    | QCount i => DMsg [("count", DMsg [("inner", m_query i)])]
    end.
  Definition m_nprop (p : nprop) : dval := DMsg [("name", m_ident (np_name p)); ("value", m_json (np_value p))].
  Definition m_vprops (p : vprops) : dval := DMsg (("vertex", m_vertex (vp_vertex p)) :: all "props" m_nprop (vp_props p)).
  Definition m_eprops (p : eprops) : dval := DMsg (("edge", m_edge (ep_edge p)) :: all "props" m_nprop (ep_props p)).
  Definition m_out (v : outv) : dval :=
    match v with
    | Vertices l => DMsg [("vertices", DMsg (all "vertices" m_vertex l))]
    | Edges l => DMsg [("edges", DMsg (all "edges" m_edge l))]
    | Count n => DMsg [("count", DNum n)]
    | VertexProperties l => DMsg [("vertex_properties", DMsg (all "vertex_properties" m_vprops l))]
    | EdgeProperties l => DMsg [("edge_properties", DMsg (all "edge_properties" m_eprops l))]
    end.
  Definition m_bulk (it : bulk_item) : dval :=
    match it with
    | BVertex v => DMsg [("vertex", m_vertex v)]
    | BEdge e => DMsg [("edge", m_edge e)]
    | BVProp id n v => DMsg [("vertex_property", DMsg [("id", m_uuid id); ("name", m_ident n); ("value", m_json v)])]
    | BEProp e n v => DMsg [("edge_property", DMsg [("edge", m_edge e); ("name", m_ident n); ("value", m_json v)])]
    end.

  (** Which method a call uses, and the message, or messages, it sends. *)
  Definition m_call (c : ccall) : string * list dval :=
    match c with
    | CPing => ("Ping", [DMsg []])
    | CSync => ("Sync", [DMsg []])
    | CCreateVertex v => ("CreateVertex", [m_vertex v])
    | CCreateVertexFromType t => ("CreateVertexFromType", [m_ident t])
    | CCreateEdge e => ("CreateEdge", [m_edge e])
    | CGet q => ("Get", [m_query q])
    | CDelete q => ("Delete", [m_query q])
    | CSetProperties q n v => ("SetProperties", [DMsg [("q", m_query q); ("name", m_ident n); ("value", m_json v)]])
    | CBulkInsert items => ("BulkInsert", map m_bulk items)
    | CIndexProperty n => ("IndexProperty", [DMsg [("name", m_ident n)]])
    | CExecutePlugin name arg => ("ExecutePlugin", [DMsg (present "name" (DText name) ++ [("arg", m_json arg)])])
    end.
  (** The message, or messages, of a result. *)
  Definition m_result (r : res) : list dval :=
    match r with
    | RUnit => [DMsg []]
    | RBoolean b => [DMsg (m_flag "created" b)]
    | RUuid u => [m_uuid u]
    | ROut l => map m_out l
    end.
  (** [w] is the call [c], serialized in any way that the schema allows. *)
  Definition on_wire_is (m : string) (x : srv bytes) (d : dval) : Prop := match x, d with SOk b, DMsg l => serializes m b l | _, _ => False end.
  Definition is_call (c : ccall) (w : wired) : Prop :=
    exists input output, In (fst (m_call c), input, output) service /\
      match input, w with
      | One m, WUnary me b => method_name me = fst (m_call c) /\ Forall2 (on_wire_is m) [SOk b] (snd (m_call c))
      | Stream m, WStream l => Forall2 (on_wire_is m) l (snd (m_call c))
      | _, _ => False
      end.
  (** [w] is the result [r] of the method [n]. *)
  Definition is_result (n : string) (r : res) (w : replied) : Prop :=
    exists input output, In (n, input, output) service /\
      match output, w with
      | One m, WReply b => Forall2 (on_wire_is m) [SOk b] (m_result r)
      | Stream m, WReplies l => Forall2 (on_wire_is m) l (m_result r)
      | _, _ => False
      end.
End Tables.

(** ** Proof *)
Section Proofs.
  Variable enc : json -> bytes.
  Lemma uuid_bytes (u : uuid) : exists b l, ub u = b :: l.
  Proof. destruct u as [[|b l] Hu]; [discriminate Hu|]. cbn. eauto. Qed.
  Lemma mean_uuid u : DMsg (uuid_message (to_uuid u)) = m_uuid u.
  Proof. unfold uuid_message, m_uuid, to_uuid, text. cbn. destruct (uuid_bytes u) as (b & l & ->). reflexivity. Qed.
  Lemma mean_text n b : text n b = present n (DText b).
  Proof. now destruct b. Qed.
  Lemma mean_ident i : DMsg (ident_message (to_ident i)) = m_ident i.
  Proof. unfold ident_message, m_ident. now rewrite mean_text. Qed.
  Lemma mean_json v : DMsg (json_message (to_json enc v)) = m_json enc v.
  Proof. unfold json_message, m_json. now rewrite mean_text. Qed.
  Lemma mean_number n k : number n k = present n (DNum k).
  Proof. now destruct k. Qed.
  Lemma mean_flag n b : flag n b = m_flag n b.
  Proof. now destruct b. Qed.
  Lemma mean_opt {A M} n (g : M -> list (string * dval)) (f : A -> dval) (t : A -> M) o : (forall x, DMsg (g (t x)) = f x) -> embedded n g (option_map t o) = opt n f o.
  Proof. intros E. destruct o as [x|]; cbn; [now rewrite E|reflexivity]. Qed.
  Lemma mean_all {A M} n (g : M -> list (string * dval)) (f : A -> dval) (t : A -> M) l : (forall x, DMsg (g (t x)) = f x) -> repeated n g (map t l) = all n f l.
  Proof. intros E. unfold repeated, all. rewrite map_map. apply map_ext. intros x. now rewrite E. Qed.
  Lemma mean_edge e : DMsg (edge_message (to_edge e)) = m_edge e.
  Proof. unfold edge_message, to_edge, m_edge. cbn. now rewrite !mean_uuid, mean_ident. Qed.
  Lemma mean_vertex v : DMsg (vertex_message (to_vertex v)) = m_vertex v.
  Proof. unfold vertex_message, to_vertex, m_vertex. cbn. now rewrite mean_uuid, mean_ident. Qed.
  Lemma mean_direction d : Schema.enum "direction" (to_direction d) = present "direction" (DInt (named_number (direction_name d))).
  Proof. now destruct d. Qed.
  Lemma mean_query q : DMsg (query_message (to_query enc q)) = m_query enc q.
  Proof.
    induction q; cbn [to_query query_message m_query embedded app]; rewrite ?mean_number, ?mean_flag, ?mean_direction, ?mean_ident, ?mean_json, ?IHq;
      rewrite ?(mean_opt _ ident_message m_ident to_ident) by apply mean_ident; rewrite ?(mean_opt _ uuid_message m_uuid to_uuid) by apply mean_uuid;
      rewrite ?(mean_all _ uuid_message m_uuid to_uuid) by apply mean_uuid; rewrite ?(mean_all _ edge_message m_edge to_edge) by apply mean_edge; try reflexivity.
  Qed.
  Lemma mean_nprop p : DMsg (nprop_message (to_nprop enc p)) = m_nprop enc p.
  Proof. unfold nprop_message, to_nprop, m_nprop. cbn [pn_name pn_value embedded app]. now rewrite mean_ident, mean_json. Qed.
  Lemma mean_vprops p : DMsg (vprops_message (to_vprops enc p)) = m_vprops enc p.
  Proof.
    unfold vprops_message, to_vprops, m_vprops. cbn [pvs_vertex pvs_props embedded app]. now rewrite mean_vertex, (mean_all _ nprop_message (m_nprop enc) (to_nprop enc)) by apply mean_nprop.
  Qed.
  Lemma mean_eprops p : DMsg (eprops_message (to_eprops enc p)) = m_eprops enc p.
  Proof.
    unfold eprops_message, to_eprops, m_eprops. cbn [pes_edge pes_props embedded app]. now rewrite mean_edge, (mean_all _ nprop_message (m_nprop enc) (to_nprop enc)) by apply mean_nprop.
  Qed.
  Lemma mean_out v : DMsg (out_message (to_out enc v)) = m_out enc v.
  Proof.
    destruct v; cbn [to_out out_message m_out]; try reflexivity; do 3 f_equal; apply f_equal.
    - apply mean_all, mean_vertex.
    - apply mean_all, mean_edge.
    - apply mean_all, mean_vprops.
    - apply mean_all, mean_eprops.
  Qed.
  Lemma mean_bulk it : DMsg (bulk_message (to_bulk enc it)) = m_bulk enc it.
  Proof. destruct it; cbn [to_bulk bulk_message m_bulk embedded app]; now rewrite ?mean_vertex, ?mean_edge, ?mean_uuid, ?mean_ident, ?mean_json. Qed.

  Definition means (x : srv fields_of) (d : dval) : Prop := match x with SOk l => DMsg l = d | SErr _ => False end.
  Lemma mean_send c : rpc_of (send enc c) = fst (m_call enc c) /\ Forall2 means (request_messages (send enc c)) (snd (m_call enc c)).
  Proof.
    split; [now destruct c|]. destruct c as [| |v|t|e|q|q|q n v|items|n|name arg]; cbn [send request_messages m_call snd];
      lazymatch goal with |- Forall2 _ [_] [_] => constructor; [cbn [means]|constructor] | _ => idtac end; try reflexivity.
    1-5: first [apply mean_vertex|apply mean_ident|apply mean_edge|apply mean_query|idtac].
    - unfold set_message, to_set_req. cbn [psr_q psr_name psr_value embedded app]. now rewrite mean_query, mean_ident, mean_json.
    - rewrite map_map. induction items as [|it items IH]; cbn [map]; constructor; [apply mean_bulk|exact IH].
  Qed.

  Lemma wire_means m l1 l2 l3 : Forall2 means l2 l3 -> Forall2 (on_wire m) l1 l2 <-> Forall2 (on_wire_is m) l1 l3.
  Proof.
    intros F. revert l1. induction F as [|x d l2 l3 X F IH]; intros l1.
    - split; intros G; inversion G; constructor.
    - destruct x as [l|s]; cbn in X; [subst d|contradiction].
      split; intros G; inversion G as [|y ? l1' ? Y G']; subst; (constructor; [|now apply IH]); destruct y; cbn in *; auto.
  Qed.
  (** The messages of the published service for a call are those that the client
      sends for it. *)
  Theorem C53_meaning c w : is_call enc c w <-> is_request (send enc c) w.
  Proof.
    unfold is_call, is_request. destruct (mean_send c) as [<- M]. split; intros (i & o & In1 & X); exists i, o; (split; [exact In1|]);
      destruct i as [m|m], w as [me b|l]; try contradiction; try (destruct X as [X1 X2]; split; [exact X1|]); eapply wire_means; eauto.
  Qed.
  Lemma mean_result r rs : (match r with RUnit => RsEmpty | RBoolean b => RsCreated b | RUuid u => RsUuid (to_uuid u) | ROut l => RsStream (map (fun v => SOk (to_out enc v)) l) end) = rs ->
    Forall2 means (response_messages rs) (m_result enc r).
  Proof.
    intros <-. destruct r as [|b|u|l]; cbn [response_messages m_result].
    - repeat constructor.
    - constructor; [|constructor]. cbn [means]. unfold created_message. now rewrite mean_flag.
    - constructor; [|constructor]. apply mean_uuid.
    - rewrite map_map. induction l as [|v l IH]; cbn [map]; constructor; [apply mean_out|exact IH].
  Qed.
End Proofs.

Section Any.
  Variable alnum : N -> bool.
  Variable enc : json -> bytes.
  Variable dec : bytes -> option json.
  Hypothesis enc_utf8 : forall v, utf8_valid (enc v) = true.
  Variables St Env : Type.
  Variable step : St -> Env * op -> outcome res * St.

  (** The client sends calls as the service has them. *)
  Theorem C53_client_meaning c : call_numbers c -> Forall (fun b => lenN b < 2 ^ 64)%N (messages (encode_request (send enc c))) ->
    is_call enc c (encode_request (send enc c)).
  Proof using alnum enc_utf8. intros L Sz. apply C53_meaning. now apply C53_client. Qed.

  Definition response_of (r : res) : response :=
    match r with RUnit => RsEmpty | RBoolean b => RsCreated b | RUuid u => RsUuid (to_uuid u) | ROut l => RsStream (map (fun v => SOk (to_out enc v)) l) end.
  Definition is_get (c : ccall) : bool := match c with CGet _ => true | _ => false end.
  Definition answer_of (c : ccall) (r : outcome res) : srv response :=
    match r with
    | Ok x => SOk (response_of x)
    | Err e => if is_get c then SOk (RsStream [SErr (SInternal (BecauseError e))]) else SErr (SInternal (BecauseError e))
    | Panic => if is_get c then SOk (RsStream []) else SErr (SInternal BecausePanic)
    end.
  Lemma served_call (step1 : St -> Env * op -> outcome res * St) ps st env fresh c o r st' : kinded step1 -> db_call fresh c = Some o -> sendable alnum enc dec (call_idents c) (call_values c) ->
    step1 st (env, o) = (r, st') -> serve alnum enc dec step1 ps st env fresh (send enc c) = (answer_of c r, st').
  Proof using Type.
    intros K D Sd E. specialize (K st env o). rewrite E in K. cbn [fst] in K.
    destruct c as [| |v|t|e|q|q|q n v|items|n|name arg]; cbn [db_call] in D; try discriminate; inversion D; subst o; clear D; cbn [send serve call_idents call_values] in *.
    - unfold blocking. rewrite E. destruct r as [x|e|]; try reflexivity. rewrite (K x eq_refl). reflexivity.
    - destruct Sd as [Sd _]. apply Forall_inv in Sd. rewrite C33_vertex by assumption. cbn [converted]. unfold blocking. rewrite E. destruct r as [x|e|]; try reflexivity. destruct (K x eq_refl) as (b & ->). reflexivity.
    - destruct Sd as [Sd _]. apply Forall_inv in Sd. rewrite C33_identifier by assumption. cbn [converted]. unfold blocking. rewrite E. destruct r as [x|e|]; try reflexivity. destruct (K x eq_refl) as (b & ->). reflexivity.
    - destruct Sd as [Sd _]. apply Forall_inv in Sd. rewrite C33_edge by assumption. cbn [converted]. unfold blocking. rewrite E. destruct r as [x|e0|]; try reflexivity. destruct (K x eq_refl) as (b & ->). reflexivity.
    - rewrite C33_query by assumption. cbn [converted]. rewrite E. destruct r as [x|e|]; try reflexivity. destruct (K x eq_refl) as (b & ->). reflexivity.
    - rewrite C33_query by assumption. cbn [converted]. unfold blocking. rewrite E. destruct r as [x|e|]; try reflexivity. rewrite (K x eq_refl). reflexivity.
    - rewrite C33_set_properties_request by assumption. cbn [converted]. unfold blocking. rewrite E. destruct r as [x|e|]; try reflexivity. rewrite (K x eq_refl). reflexivity.
    - rewrite bulk_all by assumption. unfold blocking. rewrite E. destruct r as [x|e|]; try reflexivity. rewrite (K x eq_refl). reflexivity.
    - destruct Sd as [Sd _]. apply Forall_inv in Sd. rewrite C33_index_request by assumption. cbn [converted]. unfold blocking. rewrite E. destruct r as [x|e|]; try reflexivity. rewrite (K x eq_refl). reflexivity.
  Qed.
  Definition same_kind (o o' : op) : bool :=
    match o, o' with
    | OCreateVertex _, OCreateVertex _ | OCreateVertexFromType _ _, OCreateVertexFromType _ _ | OCreateEdge _, OCreateEdge _ | OGet _, OGet _ | ODelete _, ODelete _
    | OSetProperties _ _ _, OSetProperties _ _ _ | OBulkInsert _, OBulkInsert _ | OIndexProperty _, OIndexProperty _ | OSync, OSync => true
    | _, _ => false
    end.
  Definition same_answer (o : op) (x : res) (st' : St) (_ : St) (y : Env * op) : outcome res * St := (if same_kind o (snd y) then Ok x else Err NotIndexed, st').
  (** Any client: if it sends the messages that the service has for a call, in any
      serialization, then the server makes that call and nothing else, and what it
      sends back is what the service has for the result of the call; or the error,
      in place of the response (or, for [Get], of the stream's first message). *)
  Theorem C53_any_client ps st env fresh c o r st' w : is_call enc c w -> kinded step -> db_call fresh c = Some o ->
    sendable alnum enc dec (call_idents c) (call_values c) ->
    Forall (fun b => lenN b <= max_message)%N (messages w) -> (forall d, In d (snd (m_call enc c)) -> depth d <= 100) ->
    step st (env, o) = (r, st') ->
    exists y, serve_wire alnum enc dec step ps st env fresh w = (y, st') /\
      match r with
      | Ok x => exists rs, y = SOk rs /\
          (Forall (fun b => lenN b < 2 ^ 64)%N (reply_messages (encode_response rs)) -> (forall l n, x = ROut l -> In (Count n) l -> (n < 2 ^ 64)%N) ->
           is_result enc (fst (m_call enc c)) x (encode_response rs))
      | Err e => y = SErr (SInternal (BecauseError e)) \/ (exists q, c = CGet q) /\ y = SOk (RsStream [SErr (SInternal (BecauseError e))])
      | Panic => y = SErr (SInternal BecausePanic) \/ (exists q, c = CGet q) /\ y = SOk (RsStream [])
      end.
  Proof using enc_utf8.
    intros W K D Sd Sz Dp E. apply C53_meaning in W. destruct (mean_send enc c) as [Nm M].
    assert (forall l, In (SOk l) (request_messages (send enc c)) -> depth (DMsg l) <= 100) as Dp'.
    { clear - M Dp. induction M as [|y d l2 l3 X F IH]; [intros l []|]. intros l [->|Hl]; [cbn in X; subst d; apply Dp; now left|]. apply IH; [|exact Hl]. intros d' Hd. apply Dp. now right. }
    rewrite (C53_served alnum enc dec step ps st env fresh W Sz Dp'). pose proof (@served_call step ps st env fresh c o r st' K D Sd E) as Sv. rewrite Sv.
    exists (answer_of c r). split; [reflexivity|]. destruct r as [x|e|].
    - exists (response_of x). split; [reflexivity|]. intros Sz2 Cn.
      assert (kinded (same_answer o x st')) as K2.
      { intros s0 e0 o0 r0. unfold same_answer. specialize (K st env o x). rewrite E in K. specialize (K eq_refl).
        clear - K. destruct o, o0; cbn [same_kind fst snd]; intros Q; try discriminate Q; assert (x = r0) as <- by congruence; exact K. }
      assert (step_same : same_answer o x st' st (env, o) = (Ok x, st')) by (unfold same_answer; clear - D; destruct c; inversion D; reflexivity).
      destruct (@C53_server alnum enc dec enc_utf8 St Env (same_answer o x st') ps st env fresh (send enc c) (response_of x) st' K2) as (i & o' & In1 & _ & X).
      { intros q l n Q. apply Cn. unfold same_answer in Q. cbn [fst snd] in Q. destruct (same_kind o (OGet q)); [congruence|discriminate Q]. }
      { exact (@served_call (same_answer o x st') ps st env fresh c o (Ok x) st' K2 D Sd step_same). }
      { exact Sz2. }
      rewrite Nm in In1. exists i, o'. split; [exact In1|]. pose proof (@mean_result enc x (response_of x) eq_refl) as Mr.
      destruct o' as [m|m], (encode_response (response_of x)) as [b|l]; try contradiction; eapply wire_means; eauto.
    - unfold answer_of. destruct c; cbn [is_get]; eauto.
    - unfold answer_of. destruct c; cbn [is_get]; eauto.
  Qed.
End Any.

(** Concrete case: the bytes of C53_foreign_request (fields in another order,
    unknown fields, padded lengths), sent to a server over an empty in-memory
    database, create that vertex and are answered with [created = true]. *)
Definition v_ab : vertex := Vertex (exist _ some_id eq_refl) (exist _ (map byte_of [97; 98]%N) eq_refl).
Example C53_any_client_case : exists rs st',
  is_call enc0 (CCreateVertex v_ab) (WUnary MCreateVertex foreign_vertex) /\
  serve_wire alnum0 enc0 dec0 (mem_step true) [] (Some mem_empty) id_order u1 (WUnary MCreateVertex foreign_vertex) = (SOk rs, st') /\
  is_result enc0 "CreateVertex" (RBoolean true) (encode_response rs).
Proof.
  assert (is_call enc0 (CCreateVertex v_ab) (WUnary MCreateVertex foreign_vertex)) as W by (apply C53_meaning; exact C53_foreign_request).
  set (o := OCreateVertex v_ab).
  destruct (@C53_any_client alnum0 enc0 dec0 enc0_utf8 _ _ (mem_step true) [] (Some mem_empty) id_order u1 (CCreateVertex v_ab) o
    (Ok (RBoolean true)) (snd (mem_step true (Some mem_empty) (id_order, o))) (WUnary MCreateVertex foreign_vertex) W (mem_kinded true) eq_refl)
    as (y & Sv & rs & -> & R).
  - split; [constructor; [|constructor]|constructor]. apply ascii_valid; reflexivity.
  - constructor; [|constructor]. vm_compute. discriminate.
  - intros d [<-|[]]. vm_compute. lia.
  - unfold o. cbn. reflexivity.
  - exists rs, (snd (mem_step true (Some mem_empty) (id_order, o))). split; [exact W|]. split; [exact Sv|]. apply R.
    + assert (rs = RsCreated true) as -> by (vm_compute in Sv; now inversion Sv). constructor; [|constructor]. vm_compute. reflexivity.
    + intros l n Q. discriminate Q.
Qed.
