(** * C42: property values written as JSON text are read back, and what follows
    for RocksDB (C07, C20) and gRPC (C33, C35). *)
From Verif Require Import Base OMap Json Types Util Db Mem Rdb Spec QueryFacts SpecFacts JsonFacts UtilFacts
  MemFacts MemRefine MemHist KeyFacts RdbSpec RdbRep RdbWrite RdbPut RdbRefine RdbGraph RdbHist RdbCrash Stages Effects
  Claims PropsMem Examples PropsMemIndex PropsRdb PropsRdbIndex PropsData Utf8 Proto ProtoFacts Server Clean PropsProto JsonText.

Set Implicit Arguments.
Local Open Scope list_scope.
Local Notation bytes := (list byte).

(** The values a call writes. *)
Definition written (o : op) : list json :=
  match o with
  | OBulkInsert items => flat_map bulk_values items
  | OSetProperties _ _ x | TSetVertexProperties _ _ x | TSetEdgeProperties _ _ x => [x]
  | _ => []
  end.

(** [n] arrays inside each other. *)
Fixpoint nest (n : nat) : raw := match n with O => RNull | S n => RArr [nest n] end.
Lemma nest_wf n : wf_raw (nest n) = true.
Proof. induction n; cbn; [reflexivity|]. now rewrite IHn. Qed.
Definition nested (n : nat) : json := exist _ (nest n) (nest_wf n).
Lemma nest_depth n : depth (nest n) = n.
Proof. induction n; cbn; [reflexivity|]. rewrite IHn. lia. Qed.
Lemma nest_floats n : floats (nest n) = [].
Proof. induction n; cbn; [reflexivity|]. now rewrite IHn. Qed.

Section TextCodec.
  (** Formatting and reading of floats, see JsonText.v. *)
  Variable fmt : N -> bytes.
  Variable fread : bytes -> option N.
  Notation to_text := (to_text fmt).
  Notation of_text := (of_text fread).

  (** Every float in the value is read back from its text. *)
  Definition floats_ok (v : json) : Prop := Forall (float_ok fmt fread) (floats (jraw v)).
  (** ... and it is nested at most 127 deep. *)
  Definition plain (v : json) : Prop := floats_ok v /\ depth (jraw v) <= 127.

  Theorem C42_text_roundtrip v : plain v -> of_text (to_text v) = Some v.
  Proof. intros [F D]. now apply of_text_to_text. Qed.

  (** In particular all values without floats. *)
  Theorem C42_text_integers v : floats (jraw v) = [] -> depth (jraw v) <= 127 -> of_text (to_text v) = Some v.
  Proof. intros F D. apply C42_text_roundtrip. split; [|assumption]. unfold floats_ok. now rewrite F. Qed.

  (** The limit is sharp. *)
  Theorem C42_text_too_deep v : floats_ok v -> 128 <= depth (jraw v) -> of_text (to_text v) = None.
  Proof. apply of_text_too_deep. Qed.
  Theorem C42_roundtrip_iff v : floats_ok v -> (of_text (to_text v) = Some v <-> depth (jraw v) <= 127).
  Proof.
    intros F. split.
    - intros E. destruct (le_lt_dec (depth (jraw v)) 127) as [|G]; [assumption|].
      rewrite C42_text_too_deep in E by (assumption || lia). discriminate.
    - intros D. now apply C42_text_roundtrip.
  Qed.

  (** Different values have different text, however deep. *)
  Theorem C42_text_injective v w : floats_ok v -> floats_ok w -> to_text v = to_text w -> v = w.
  Proof.
    intros Fv Fw E. unfold JsonText.to_text in E.
    pose (f := weight (jraw v) + weight (jraw w)). pose (d := S (depth (jraw v) + depth (jraw w))).
    pose proof (@value_text fmt fread (jraw v) (proj2_sig v) Fv d f []) as Hv.
    pose proof (@value_text fmt fread (jraw w) (proj2_sig w) Fw d f []) as Hw.
    rewrite E, Hw in Hv by (subst f d; cbn; lia || exact I).
    assert (Some (jraw w, @nil byte) = Some (jraw v, [])) as X by (apply Hv; subst f d; cbn; lia || exact I).
    inversion X as [X']. destruct v as [v pv], w as [w pw]. cbn in X'. subst w.
    f_equal. apply Eqdep_dec.UIP_dec, Bool.bool_dec.
  Qed.

  (** Reading never invents a value that could not exist: the check in [of_text]
      never fails. *)
  Theorem C42_read_valid s : (forall t b, fread t = Some b -> wf_raw (RFlt b) = true) ->
    of_text s = None <-> read fread s = None.
  Proof.
    intros FF. unfold JsonText.of_text. destruct (read fread s) as [v|] eqn:E; [|tauto].
    pose proof (@read_wf fread FF _ _ E) as W. destruct (Bool.bool_dec (wf_raw v) true); [|contradiction]. split; discriminate.
  Qed.

  (** A text is refused if it is nested 128 deep: a value that was read is at
      most 127 deep, so it can be written and read again. *)
  Theorem C42_read_depth s v : of_text s = Some v -> depth (jraw v) <= 127.
  Proof. apply of_text_depth. Qed.
  Theorem C42_reread s v : of_text s = Some v -> floats_ok v -> of_text (to_text v) = Some v.
  Proof. intros R F. apply C42_text_roundtrip. split; [assumption|]. now apply of_text_depth in R. Qed.

  (** ** RocksDB with this text form *)
  Variable H : list byte -> N.
  Notation run := (rdb_run H to_text of_text).
  Notation ops env := (rdb_ops H to_text of_text env).

  Lemma plain_lossless v : plain v -> lossless to_text of_text v.
  Proof. apply C42_text_roundtrip. Qed.
  Theorem C42_rdb_good o : Forall plain (written o) -> good_op to_text of_text o.
  Proof.
    destruct o; cbn; intros F; try exact I; try (apply plain_lossless; exact (Forall_inv F)).
    induction items as [|it items IH]; [constructor|]. cbn in F. apply Forall_app in F as [F1 F2].
    constructor; [|now apply IH]. destruct it; cbn in *; try exact I; apply plain_lossless; exact (Forall_inv F1).
  Qed.
  Theorem C42_rdb_good_history h : Forall (fun x => Forall plain (written (snd x))) h -> good_history to_text of_text h.
  Proof. intros F. eapply Forall_impl; [|exact F]. intros x. apply C42_rdb_good. Qed.

  (** Any history writing only plain values: reading fails only for the two
      query errors, no call panics. *)
  Theorem C20_rdb_text h env q : Forall (fun x => Forall plain (written (snd x))) h ->
    (exists outs, db_get (ops env) (run h) q = Ok outs) \/
    db_get (ops env) (run h) q = Err OperationOnQuery \/ db_get (ops env) (run h) q = Err NotIndexed.
  Proof. intros F. apply C20_rdb_reads. now apply C42_rdb_good_history. Qed.
  Theorem C20_rdb_text_no_panic h env o : Forall (fun x => Forall plain (written (snd x))) h ->
    Forall plain (written o) -> fst (exec (ops env) (run h) o) <> Panic.
  Proof. intros F G. apply C20_rdb_no_panic; [now apply C42_rdb_good_history|now apply C42_rdb_good]. Qed.

  (** ** gRPC with this text form *)
  Variable alnum : N -> bool.
  Theorem C33_text is vs : Forall (valid_ident alnum) is -> Forall plain vs -> sendable alnum to_text of_text is vs.
  Proof. intros I V. split; [assumption|]. eapply Forall_impl; [|exact V]. intros v. apply C42_text_roundtrip. Qed.

  (** A deeper value cannot be sent. *)
  Theorem C33_deep_refuted v : floats_ok v -> 128 <= depth (jraw v) ->
    of_json of_text (to_json to_text v) = CErr CEJson.
  Proof. intros F D. unfold of_json, to_json. cbn. now rewrite C42_text_too_deep. Qed.

  (** Setting such a value works locally; the same call is rejected remotely. *)
  Theorem C35_deep_refuted Env St (step : St -> Env * op -> outcome res * St) ps st env fresh q n v :
    Forall (valid_ident alnum) (n :: q_idents q) -> Forall plain (q_values q) -> floats_ok v -> 128 <= depth (jraw v) ->
    exists a, remote alnum to_text of_text step ps st env fresh (CSetProperties q n v) = (a, st) /\
      (forall x, a <> ClOk x).
  Proof.
    intros I V F D. unfold remote. cbn [send serve].
    apply Forall_cons_iff in I as [I1 I2]. unfold of_set_req, to_set_req. cbn [psr_q psr_name psr_value required cbind].
    rewrite C33_query by now apply C33_text. cbn [cbind].
    rewrite C33_identifier by assumption. cbn [cbind]. rewrite C33_deep_refuted by assumption. cbn.
    eexists. split; [reflexivity|]. discriminate.
  Qed.
End TextCodec.

(** C20 is false for a value nested 128 deep: it is stored without complaint and
    then no query that touches it can be answered. *)
Theorem C20_rdb_deep_refuted fmt fread : exists h v n x e,
  let ops := rdb_ops hash0 (to_text fmt) (of_text fread) ok_env in
  let s := rdb_run hash0 (to_text fmt) (of_text fread) h in
  floats (jraw x) = [] /\ depth (jraw x) = 128 /\
  fst (exec ops s (OSetProperties (q_vertex (vid v)) n x)) = Ok RUnit /\
  db_get ops (snd (exec ops s (OSetProperties (q_vertex (vid v)) n x))) (q_vprop (vid v) n) = Err e /\
  e <> OperationOnQuery /\ e <> NotIndexed.
Proof.
  exists (ok_calls [OCreateVertex v1]), v1, n_name, (nested 128), EDatastore. cbv zeta.
  split; [reflexivity|]. split; [reflexivity|].
  split; [vm_compute; reflexivity|]. split; [vm_compute; reflexivity|]. split; discriminate.
Qed.

(** ** Concrete cases *)

(** An object with an empty key, a key that needs escapes and a non-ASCII key,
    holding the extreme integers. *)
Definition j_text : json := exist _ (RObj
  [([], RArr []); ([x61; x01; x22], RArr [RNull; RBool true; RNeg (- 9223372036854775808); RPos 18446744073709551615]);
   ([xc3; xa9], RObj [])]) eq_refl.

Example C42_example fmt fread :
  plain fmt fread j_text /\ plain fmt fread (nested 127) /\ ~ plain fmt fread (nested 128) /\
  floats_ok fmt fread (nested 128) /\
  to_text fmt j_text = [x7b; x22; x22; x3a; x5b; x5d; x2c; x22; x61; x5c; x75; x30; x30; x30; x31; x5c; x22; x22; x3a;
    x5b; x6e; x75; x6c; x6c; x2c; x74; x72; x75; x65; x2c; x2d; x39; x32; x32; x33; x33; x37; x32; x30; x33; x36; x38;
    x35; x34; x37; x37; x35; x38; x30; x38; x2c; x31; x38; x34; x34; x36; x37; x34; x34; x30; x37; x33; x37; x30; x39;
    x35; x35; x31; x36; x31; x35; x5d; x2c; x22; xc3; xa9; x22; x3a; x7b; x7d; x7d] /\
  of_text fread (to_text fmt j_text) = Some j_text.
Proof.
  assert (plain fmt fread j_text) as P.
  { split; [constructor|]. vm_compute. lia. }
  conj; auto.
  - split; [unfold floats_ok, nested; cbn [jraw proj1_sig]; rewrite nest_floats; constructor|]. unfold nested. cbn [jraw proj1_sig]. rewrite nest_depth. lia.
  - intros [_ D]. unfold nested in D. cbn [jraw proj1_sig] in D. rewrite nest_depth in D. lia.
  - unfold floats_ok, nested; cbn [jraw proj1_sig]; rewrite nest_floats; constructor.
Qed.

(** Floats: a formatter and a reader for which 1.5 ([0x3FF8000000000000]) is
    read back. *)
Definition fmt15 (b : N) : bytes := [x31; x2e; x35].
Definition fread15 (t : bytes) : option N := Some 0x3FF8000000000000%N.
Example C42_float_example : plain fmt15 fread15 (exist _ (RArr [RFlt 0x3FF8000000000000]) eq_refl).
Proof.
  split; [|cbn; lia]. constructor; [|constructor]. split; [exists x31, [x2e; x35]; auto|].
  intros r S. unfold fmt15. destruct r as [|b r]; [reflexivity|]. destruct S as (D & D1 & D2 & D3).
  unfold number. cbn -[is_digit digits beq]. 
  assert (digits (x35 :: b :: r) = ([x35], b :: r)) as E by (cbn -[is_digit]; rewrite D; reflexivity).
  assert (digits (x31 :: x2e :: x35 :: b :: r) = ([x31], x2e :: x35 :: b :: r)) as E1 by reflexivity.
  replace (beq x31 x2d) with false by reflexivity. rewrite E1. replace (beq x31 x30) with false by reflexivity. cbn [andb].
  unfold fraction. replace (beq x2e x2e) with true by reflexivity. rewrite E. unfold exponent. rewrite D2, D3. reflexivity.
Qed.
