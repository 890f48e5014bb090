(** * C53: the server and the client speak the published protocol: any
    serialization of a request is understood, and what they send is one. *)
From Coq Require Import String.
From Verif Require Import Base OMap Json Types Util Db Proto MemFacts Wire WireFacts Server Transport PropsProto PropsWire
  Schema SchemaFacts SchemaMessages Service.

Set Implicit Arguments.
Local Open Scope string_scope.
Local Open Scope list_scope.
Local Notation bytes := (list byte).

Definition reply_messages (w : replied) : list bytes :=
  match w with WReply b => [b] | WReplies l => flat_map (fun x => match x with SOk b => [b] | SErr _ => [] end) l end.

(** ** Receiving *)
Lemma arrive_understood {M} m (dec : nat -> M -> bytes -> option M) dflt x l b : understands m dec dflt x l ->
  serializes m b l -> (lenN b <= max_message)%N -> (depth (DMsg l) <= 100)%nat -> arrive dec dflt b = Some x.
Proof.
  intros U (occ & O & C) Sz D. unfold arrive. destruct (N.ltb_spec max_message (lenN b)); [lia|]. exact (U b occ 100 O C D).
Qed.
Lemma one_inv m b l : Forall2 (on_wire m) [SOk b] [SOk l] -> serializes m b l.
Proof. intros F. inversion F; subst. assumption. Qed.
Ltac at_row H := cbn in H; repeat (destruct H as [H|H]; [try discriminate H|]); [..|destruct H].
Theorem C53_request rq w : is_request rq w ->
  Forall (fun b => lenN b <= max_message)%N (messages w) ->
  (forall l, In (SOk l) (request_messages rq) -> depth (DMsg l) <= 100) ->
  decode_request w = Some rq.
Proof.
  intros (inp & outp & Hin & Rq) Sz D.
  destruct rq as [| |v|t|e|q|q|r|items|r|name arg]; cbn [rpc_of] in *; at_row Hin; inversion Hin; subst inp outp; clear Hin;
    destruct w as [me b|bs]; try contradiction; cbn [request_messages messages decode_request] in *;
    try (apply Forall_inv in Sz; specialize (D _ (or_introl eq_refl)); destruct Rq as [Me Rq]; destruct me; try discriminate Me; apply one_inv in Rq; cbn [arrive_request]).
  - now rewrite (arrive_understood empty_understood Rq).
  - now rewrite (arrive_understood empty_understood Rq).
  - now rewrite (arrive_understood (vertex_understood v) Rq).
  - now rewrite (arrive_understood (ident_understood t) Rq).
  - now rewrite (arrive_understood (edge_understood e) Rq).
  - now rewrite (arrive_understood (query_understood q) Rq).
  - now rewrite (arrive_understood (query_understood q) Rq).
  - now rewrite (arrive_understood (set_understood r) Rq).
  - do 2 f_equal. revert bs Sz Rq. induction items as [|it items IH]; intros bs Sz Rq; inversion Rq as [|x ? bs' ? Ox F E1 E2]; subst; [reflexivity|]. cbn [map].
    rewrite IH; [f_equal| |cbn [flat_map] in Sz; now apply Forall_app in Sz as [_ Sz]|assumption].
    + destruct x as [b|s], it as [it|s']; cbn in Ox; try contradiction; [|now subst]. cbn [flat_map app] in Sz. apply Forall_inv in Sz.
      unfold arrive_item. rewrite (arrive_understood (bulk_understood it) Ox); auto. apply D. now left.
    + intros l Hl. apply D. cbn [map]. now right.
  - now rewrite (arrive_understood (index_understood r) Rq).
  - now rewrite (arrive_understood (plugin_understood (name, arg)) Rq).
Qed.

(** Responses are never deep. *)
Lemma depth_le l k : (forall n v, In (n, v) l -> depth v <= k) -> depth (DMsg l) <= S k.
Proof.
  intros H. cbn [depth]. apply le_n_S. apply list_max_le, Forall_forall. intros x Hx. apply in_map_iff in Hx as ([n v] & <- & Hin). eapply H, Hin.
Qed.
Lemma in_embedded {M} n n' (f : M -> fields_of) o v : In (n, v) (embedded n' f o) -> exists x, o = Some x /\ v = DMsg (f x).
Proof. destruct o as [x|]; intros Hin; [|destruct Hin]. destruct Hin as [E|[]]. inversion E. eauto. Qed.
Lemma in_repeated {M} n n' (f : M -> fields_of) l v : In (n, v) (repeated n' f l) -> exists x, In x l /\ v = DMsg (f x).
Proof. unfold repeated. intros Hin. apply in_map_iff in Hin as (x & E & Hin). inversion E. eauto. Qed.
Lemma in_text n n' b v : In (n, v) (text n' b) -> depth v = 0.
Proof. destruct b; intros Hin; [destruct Hin|]. destruct Hin as [E|[]]. now inversion E. Qed.
Lemma depth_uuid u : depth (DMsg (uuid_message u)) <= 1.
Proof. apply depth_le. intros n v Hin. apply in_text in Hin. lia. Qed.
Lemma depth_ident u : depth (DMsg (ident_message u)) <= 1.
Proof. apply depth_le. intros n v Hin. apply in_text in Hin. lia. Qed.
Lemma depth_json u : depth (DMsg (json_message u)) <= 1.
Proof. apply depth_le. intros n v Hin. apply in_text in Hin. lia. Qed.
Ltac deep := apply depth_le; let n := fresh "n" in let v := fresh "v" in let Hin := fresh "Hin" in let x := fresh "x" in
  intros n v Hin; unfold edge_message, vertex_message, nprop_message, vprops_message, eprops_message in Hin; rewrite ?in_app_iff in Hin;
  repeat match type of Hin with _ \/ _ => destruct Hin as [Hin|Hin] end;
  first [apply in_embedded in Hin as (x & _ & ->)|apply in_repeated in Hin as (x & _ & ->)].
Lemma depth_edge e : depth (DMsg (edge_message e)) <= 2.
Proof. deep; [apply depth_uuid|apply depth_ident|apply depth_uuid]. Qed.
Lemma depth_vertex e : depth (DMsg (vertex_message e)) <= 2.
Proof. deep; [apply depth_uuid|apply depth_ident]. Qed.
Lemma depth_nprop e : depth (DMsg (nprop_message e)) <= 2.
Proof. deep; [apply depth_ident|apply depth_json]. Qed.
Lemma depth_vprops e : depth (DMsg (vprops_message e)) <= 3.
Proof. deep; [apply depth_vertex|apply depth_nprop]. Qed.
Lemma depth_eprops e : depth (DMsg (eprops_message e)) <= 3.
Proof. deep; [apply depth_edge|apply depth_nprop]. Qed.
Lemma depth_out v : depth (DMsg (out_message v)) <= 5.
Proof.
  apply depth_le. intros n x. destruct v as [|l|l|c|l|l]; intros Hin; [destruct Hin|..]; destruct Hin as [E|[]]; inversion E; subst.
  - etransitivity; [deep; apply depth_vertex|lia].
  - etransitivity; [deep; apply depth_edge|lia].
  - cbn. lia.
  - deep; apply depth_vprops.
  - deep; apply depth_eprops.
Qed.

Section Served.
  Variable alnum : N -> bool.
  Variable enc : json -> bytes.
  Variable dec : bytes -> option json.
  Hypothesis enc_utf8 : forall v, utf8_valid (enc v) = true.
  Variables St Env : Type.
  Variable step : St -> Env * op -> outcome res * St.

  (** The server does the same with any two serializations of a request: what
      it does with the request. *)
  Theorem C53_served ps st env fresh rq w : is_request rq w ->
    Forall (fun b => lenN b <= max_message)%N (messages w) ->
    (forall l, In (SOk l) (request_messages rq) -> depth (DMsg l) <= 100) ->
    serve_wire alnum enc dec step ps st env fresh w = serve alnum enc dec step ps st env fresh rq.
  Proof using Type. intros R Sz D. unfold serve_wire. now rewrite (C53_request R Sz D). Qed.

  (** What the client of the repository sends is a request of the service. *)
  Definition call_numbers (c : ccall) : Prop :=
    match c with
    | CGet q | CDelete q | CSetProperties q _ _ => limits_u32 q
    | CExecutePlugin name _ => utf8_valid name = true
    | _ => True
    end.
  Lemma row n i o : find (fun x => fst (fst x) =? n) service = Some (n, i, o) -> In (n, i, o) service.
  Proof using Type. intros E. now apply find_some in E. Qed.
  Ltac unary := eexists _, _; split; [apply row; reflexivity|]; split; [reflexivity|]; constructor; [|constructor].
  Theorem C53_client c : call_numbers c -> Forall (fun b => lenN b < 2 ^ 64)%N (messages (encode_request (send enc c))) ->
    is_request (send enc c) (encode_request (send enc c)).
  Proof.
    intros L Sz. destruct c as [| |v|t|e|q|q|q n v|items|n|name arg]; cbn [send encode_request messages call_numbers] in *; try (apply Forall_inv in Sz).
    - unary. exists []. split; [apply o_nil|apply content_nil].
    - unary. exists []. split; [apply o_nil|apply content_nil].
    - unary. apply vertex_conforms; [apply ident_ok|exact Sz].
    - unary. apply ident_conforms; [apply ident_ok|exact Sz].
    - unary. apply edge_conforms; [apply ident_ok|exact Sz].
    - unary. apply query_conforms; [now apply query_sent_ok|exact Sz].
    - unary. apply query_conforms; [now apply query_sent_ok|exact Sz].
    - unary. apply set_conforms; [|exact Sz]. unfold set_req_ok, to_set_req. cbn. conj; [now apply query_sent_ok|apply ident_ok|now apply json_ok].
    - eexists _, _. split; [apply row; reflexivity|]. cbn [request_messages]. rewrite !map_map in *.
      induction items as [|it items IH]; cbn [map flat_map app] in *; constructor.
      + apply Forall_inv in Sz. apply bulk_conforms; [now apply bulk_sent_ok|exact Sz].
      + apply IH. now apply Forall_inv_tail in Sz.
    - unary. apply index_conforms; [apply ident_ok|exact Sz].
    - unary. apply plugin_conforms; [|exact Sz]. cbn. split; [assumption|now apply json_ok].
  Qed.

  (** What the server sends back is a response of the service, of the type it
      has for the call. *)
  Theorem C53_server ps st env fresh rq r st' : kinded step ->
    (forall q l n, fst (step st (env, OGet q)) = Ok (ROut l) -> In (Count n) l -> (n < 2 ^ 64)%N) ->
    serve alnum enc dec step ps st env fresh rq = (SOk r, st') ->
    Forall (fun b => lenN b < 2 ^ 64)%N (reply_messages (encode_response r)) ->
    is_response rq r (encode_response r).
  Proof.
    intros K Cn Sv Sz.
    assert (forall o k, blocking step st env o k = (SOk r, st') -> exists a, fst (step st (env, o)) = Ok a /\ r = k a) as B.
    { intros o k. unfold blocking. destruct (step st (env, o)) as [[a|e|] s1]; intros E; inversion E; subst. exists a. auto. }
    assert (forall A (x : cres A) k, converted st x k = (SOk r, st') -> exists a, k a = (SOk r, st')) as Cv.
    { intros A [a|e] k E; [eauto|discriminate E]. }
    destruct rq as [| |v|t|e|q|q|rs|items|rs|name arg]; cbn [serve] in Sv.
    - inversion Sv; subst. unary. exists []. split; [apply o_nil|apply content_nil].
    - apply B in Sv as (a & _ & ->). unary. exists []. split; [apply o_nil|apply content_nil].
    - apply Cv in Sv as (x & Sv). apply B in Sv as (a & Ea & ->). destruct (K _ _ _ _ Ea) as (b & ->). cbn [created encode_response reply_messages] in *. apply Forall_inv in Sz.
      unary. now apply created_conforms.
    - apply Cv in Sv as (x & Sv). apply B in Sv as (a & Ea & ->). destruct (K _ _ _ _ Ea) as (b & ->). cbn [new_uuid encode_response reply_messages] in *. apply Forall_inv in Sz.
      unary. now apply uuid_conforms.
    - apply Cv in Sv as (x & Sv). apply B in Sv as (a & Ea & ->). destruct (K _ _ _ _ Ea) as (b & ->). cbn [created encode_response reply_messages] in *. apply Forall_inv in Sz.
      unary. now apply created_conforms.
    - apply Cv in Sv as (x & Sv). destruct (step st (env, OGet x)) as [a s1] eqn:E. inversion Sv; subst; clear Sv.
      eexists _, _. split; [apply row; reflexivity|]. split; [reflexivity|]. cbn [encode_response response_messages reply_messages] in *.
      destruct a as [a|e|]; [|constructor; [reflexivity|constructor]|constructor].
      assert (fst (step st (env, OGet x)) = Ok a) as Ea by (now rewrite E). destruct (K _ _ _ _ Ea) as (l & ->). cbn [outputs] in *. rewrite !map_map in *. specialize (Cn x l).
      assert (forall n, In (Count n) l -> (n < 2 ^ 64)%N) as C2 by (intros n; apply Cn; exact Ea). clear - enc_utf8 C2 Sz.
      induction l as [|v l IH]; cbn [map flat_map app] in *; constructor.
      + apply Forall_inv in Sz. apply out_conforms; [|exact Sz]. apply out_sent_ok; [exact (fun _ => true)|exact enc_utf8|]. intros n ->. apply C2. now left.
      + apply IH; [now apply Forall_inv_tail in Sz|]. intros n Hn. apply C2. now right.
    - apply Cv in Sv as (x & Sv). apply B in Sv as (a & _ & ->). unary. exists []. split; [apply o_nil|apply content_nil].
    - apply Cv in Sv as ([[q n] v] & Sv). apply B in Sv as (a & _ & ->). unary. exists []. split; [apply o_nil|apply content_nil].
    - destruct (read_stream alnum dec items) as [l|s]; [|discriminate Sv]. apply B in Sv as (a & _ & ->). unary. exists []. split; [apply o_nil|apply content_nil].
    - apply Cv in Sv as (x & Sv). apply B in Sv as (a & _ & ->). unary. exists []. split; [apply o_nil|apply content_nil].
    - apply Cv in Sv as (x & Sv). destruct (find_plugin name ps) as [p|]; [|discriminate Sv]. destruct (p st x) as [[v|e|] s1]; inversion Sv; subst.
      cbn [encode_response reply_messages] in *. apply Forall_inv in Sz. unary. apply plugin_result_conforms; [|exact Sz]. now apply json_ok.
  Qed.

  (** The client understands any serialization of a response, so also those of
      other servers. *)
  Theorem C53_response c r w : is_response (send enc c) r w ->
    Forall (fun b => lenN b <= max_message)%N (reply_messages w) -> decode_response (kind_of c) w = SOk r.
  Proof using Type.
    clear enc_utf8 dec. intros (inp & outp & Hin & Ty & Rs) Sz.
    assert (forall b, serializes "google.protobuf.Empty" b [] -> (lenN b <= max_message)%N -> or_status (option_map (fun _ => RsEmpty) (arrive dec_empty tt b)) = SOk RsEmpty) as Em.
    { intros b Se L. rewrite (arrive_understood empty_understood Se); [reflexivity|exact L|cbn; lia]. }
    destruct c as [| |v|t|e|q|q|q n v|items|n|name arg]; cbn [send rpc_of kind_of] in *; at_row Hin; inversion Hin; subst inp outp; clear Hin;
      destruct r as [|b|u|l|x]; try discriminate; destruct w as [b'|bs]; try contradiction; cbn [response_messages reply_messages decode_response] in *;
      try (apply Forall_inv in Sz; apply one_inv in Rs); try (now apply Em); clear Em.
    - rewrite (arrive_understood (created_understood b) Rs); [reflexivity|exact Sz|destruct b; cbn; lia].
    - rewrite (arrive_understood (uuid_understood u) Rs); [reflexivity|exact Sz|]. pose proof (depth_uuid u). lia.
    - rewrite (arrive_understood (created_understood b) Rs); [reflexivity|exact Sz|destruct b; cbn; lia].
    - cbn [response_type] in Rs. match goal with H : Stream _ = response_type _ |- _ => clear H end. do 2 f_equal. revert bs Sz Rs. induction l as [|x l IH]; intros bs Sz Rs; inversion Rs as [|y ? bs' ? Ox F E1 E2]; subst; [reflexivity|]. cbn [map].
      rewrite IH; [f_equal|cbn [flat_map] in Sz; now apply Forall_app in Sz as [_ Sz]|assumption].
      destruct x as [x|s], y as [b|s']; cbn in Ox; try contradiction; [|now subst]. cbn [flat_map app] in Sz. apply Forall_inv in Sz.
      rewrite (arrive_understood (out_understood x) Ox); auto. pose proof (depth_out x). lia.
    - rewrite (arrive_understood (plugin_result_understood x) Rs); [reflexivity|exact Sz|].
      etransitivity; [deep; apply depth_json|lia].
  Qed.
End Served.

(** ** A concrete request

    A vertex whose type comes before its id, with a key padded to two bytes, a
    length padded to three, and two fields the schema does not have: one in the vertex (number 9, eight
    bytes), one in the identifier (number 3, a number). *)
Definition some_id : bytes := map byte_of [1; 2; 3; 4; 5; 6; 7; 8; 9; 10; 11; 12; 13; 14; 15; 16]%N.
Definition foreign_vertex : bytes := map byte_of (
  [18; 6; 10; 2; 97; 98; 24; 5] ++
  [73; 0; 0; 0; 0; 0; 0; 0; 255] ++
  [138; 0; 146; 128; 0; 10; 16; 1; 2; 3; 4; 5; 6; 7; 8; 9; 10; 11; 12; 13; 14; 15; 16])%N.
Definition the_vertex : pvertex := PVertex (Some (PUuid some_id)) (Some (PIdent (map byte_of [97; 98]%N))).
Lemma small_varint n : (n < 128)%N -> is_varint n [byte_of n].
Proof. intros L. split; [now apply digits_one|]. split; [cbn; lia|]. change (2 ^ 64)%N with (128 * 2 ^ 57)%N. lia. Qed.
Lemma key_field t w b m f occ v r : In f (schema m) -> f_num f = t -> is_field t w b -> says (f_type f) w v -> occurs m r occ ->
  occurs m (b ++ r) ((f_name f, v) :: occ).
Proof. intros Hf <- Fi Sa O. econstructor; eauto. Qed.
Ltac concrete := split;
  [let f := fresh "f" in let Hf := fresh "Hf" in intros f Hf; unfold schema in Hf; cbn in Hf;
   repeat (destruct Hf as [<-|Hf]; [cbn; try split; (lia || reflexivity)|]); destruct Hf
  |let f := fresh "f" in let Hf := fresh "Hf" in let K := fresh "K" in intros (f & Hf & K); unfold schema in Hf; cbn in Hf;
   repeat (destruct Hf as [<-|Hf]; [discriminate K|]); destruct Hf].
Example C53_foreign_request : is_request (RqCreateVertex the_vertex) (WUnary MCreateVertex foreign_vertex).
Proof.
  eexists _, _. split; [right; right; left; reflexivity|]. split; [reflexivity|]. constructor; [|constructor]. cbn [on_wire].
  exists [("t", DMsg (ident_message (PIdent (map byte_of [97; 98]%N)))); ("id", DMsg (uuid_message (PUuid some_id)))].
  split.
  - change foreign_vertex with (map byte_of [18; 6; 10; 2; 97; 98; 24; 5]%N ++ map byte_of [73; 0; 0; 0; 0; 0; 0; 0; 255]%N ++
      map byte_of [138; 0; 146; 128; 0; 10; 16; 1; 2; 3; 4; 5; 6; 7; 8; 9; 10; 11; 12; 13; 14; 15; 16]%N ++ []).
    apply (@key_field 2 (WLen (map byte_of [10; 2; 97; 98; 24; 5]%N)) _ "Vertex" (F Plain (TMsg "Identifier") "t" 2)); [cbn; tauto|reflexivity| | |].
    + apply (@f_bytes 2 (map byte_of [10; 2; 97; 98; 24; 5]%N) [byte_of 18] [byte_of 6]); [lia| |]; apply small_varint; reflexivity.
    + apply s_msg with (occ := [("value", DText (map byte_of [97; 98]%N))]); [|concrete].
      change (map byte_of [10; 2; 97; 98; 24; 5]%N) with (map byte_of [10; 2; 97; 98]%N ++ map byte_of [24; 5]%N ++ []).
      apply (@key_field 1 (WLen (map byte_of [97; 98]%N)) _ "Identifier" (F Plain TString "value" 1)); [cbn; tauto|reflexivity| | |].
      * apply (@f_bytes 1 (map byte_of [97; 98]%N) [byte_of 10] [byte_of 2]); [lia| |]; apply small_varint; reflexivity.
      * apply s_string. reflexivity.
      * apply (@o_unknown "Identifier" 3 (WVar 5)); [cbn; intuition discriminate| |constructor].
        apply (@f_varint 3 5 [byte_of 24] [byte_of 5]); [lia| |]; apply small_varint; reflexivity.
    + apply (@o_unknown "Vertex" 9 WOther); [cbn; intuition discriminate| |].
      * apply (@f_64bit 9 (map byte_of [0; 0; 0; 0; 0; 0; 0; 255]%N) [byte_of 73]); [lia|apply small_varint; reflexivity|reflexivity].
      * apply (@key_field 1 (WLen (map byte_of [10; 16; 1; 2; 3; 4; 5; 6; 7; 8; 9; 10; 11; 12; 13; 14; 15; 16]%N)) _ "Vertex" (F Plain (TMsg "Uuid") "id" 1)); [cbn; tauto|reflexivity| | |constructor].
        -- apply (@f_bytes 1 (map byte_of [10; 16; 1; 2; 3; 4; 5; 6; 7; 8; 9; 10; 11; 12; 13; 14; 15; 16]%N) [byte_of 138; byte_of 0] [byte_of 146; byte_of 128; byte_of 0]); [lia| |].
           ++ split; [|split; [cbn; lia|reflexivity]]. apply (@d_more (byte_of 138) 0 [byte_of 0]); [cbn; lia|]. apply (@d_last (byte_of 0)). reflexivity.
           ++ split; [|split; [cbn; lia|reflexivity]]. apply (@d_more (byte_of 146) 0 [byte_of 128; byte_of 0]); [cbn; lia|].
              apply (@d_more (byte_of 128) 0 [byte_of 0]); [cbn; lia|]. apply (@d_last (byte_of 0)). reflexivity.
        -- apply s_msg with (occ := [("value", DText some_id)]); [|concrete].
           apply (@key_field 1 (WLen some_id) (map byte_of [10; 16]%N ++ some_id) "Uuid" (F Plain TBytes "value" 1) [] (DText some_id) []); [cbn; tauto|reflexivity| |constructor|constructor].
           apply (@f_bytes 1 some_id [byte_of 10] [byte_of 16]); [lia| |]; apply small_varint; reflexivity.
  - concrete.
Qed.
Example C53_foreign_request_read : decode_request (WUnary MCreateVertex foreign_vertex) = Some (RqCreateVertex the_vertex).
Proof.
  apply (C53_request C53_foreign_request).
  - constructor; [|constructor]. vm_compute. discriminate.
  - intros l [E|[]]. inversion E. pose proof (depth_vertex the_vertex). lia.
Qed.
