(** * C60: a failure is reported with its cause. *)
From Coq Require Import String.
From Verif Require Import Base OMap Json Types Util Db Mem Utf8 Proto ProtoFacts Server Errors MemFacts Examples PropsMemIndex PropsRdbIndex PropsData PropsProto.

Set Implicit Arguments.
Local Open Scope list_scope.
Local Notation bytes := (list byte).

(** ** The text tells which error it was *)

(** Errors that contain an error of another library. *)
Definition has_inner (e : error) : bool := match e with EDatastore | EIo => true | _ => false end.

(** Two errors of the database with the same text are the same error, for any
    texts of the errors inside them. *)
Theorem C60_error_text e p e' p' : error_text e p = error_text e' p' -> e = e' /\ (has_inner e = true -> p = p').
Proof.
  destruct e as [| | | | |[]|], e' as [| | | | |[]|]; cbn; intros E; try discriminate E; split; try reflexivity;
    intros N; try discriminate N; now inversion E.
Qed.

(** So do two conversion errors. *)
Definition has_inner_conv (e : cerr) : bool := match e with CEJson | CEUuid => true | _ => false end.
Lemma app_string_inv_r (a b s : string) : (a ++ s = b ++ s)%string -> a = b.
Proof.
  intros E. apply (f_equal list_byte_of_string) in E.
  assert (forall x y, list_byte_of_string (x ++ y) = list_byte_of_string x ++ list_byte_of_string y) as L.
  { clear. intros x y. induction x as [|c x IH]; [reflexivity|]. unfold list_byte_of_string in *. cbn. now rewrite IH. }
  rewrite !L in E. apply app_inv_tail in E. apply (f_equal string_of_list_byte) in E.
  now rewrite !string_of_list_byte_of_string in E.
Qed.
Theorem C60_conversion_text e p e' p' :
  conversion_text e p = conversion_text e' p' -> e = e' /\ (has_inner_conv e = true -> p = p').
Proof.
  destruct e as [| |[]|n], e' as [| |[]|n']; cbn; intros E; try discriminate E; split; try reflexivity;
    intros; try discriminate; try (now inversion E).
  injection E as E. f_equal. eapply app_string_inv_r. exact E.
Qed.

(** Code and message of a status together tell everything about a failure that
    the server itself reports. *)
Definition status_inner (s : status) : bool :=
  match s with
  | SInvalidArgument e => has_inner_conv e
  | SInternal (BecauseError e) | SInternal (BecausePlugin e) => has_inner e
  | SInternal BecausePanic => true
  | SNotFound | STransport => false
  end.
Theorem C60_status_text s p s' p' : code s = code s' -> code s <> CodeOther -> message s p = message s' p' ->
  s = s' /\ (status_inner s = true -> p = p').
Proof.
  destruct s as [e|r| |], s' as [e'|r'| |]; cbn [code message status_inner]; intros C N E; try discriminate C; try congruence; [| |split; [reflexivity|discriminate]].
  - apply C60_conversion_text in E as [-> E]. auto.
  - destruct r as [e| |e], r' as [e'| |e']; cbn [reason_text plugin_text] in E.
    + apply C60_error_text in E as [-> E]. auto.
    + destruct e as [| | | | |[]|]; discriminate E.
    + destruct e as [| | | | |[]|]; discriminate E.
    + destruct e' as [| | | | |[]|]; discriminate E.
    + injection E as E. auto.
    + discriminate E.
    + destruct e' as [| | | | |[]|]; discriminate E.
    + discriminate E.
    + cbn [String.append] in E. injection E as E. apply C60_error_text in E as [-> E]. auto.
Qed.
(** And every message says something. *)
Theorem C60_message_says s p : s <> STransport -> message s p <> EmptyString.
Proof. intros N. destruct s as [[| |[]|]|[[| | | | |[]|]| |]| |]; cbn; discriminate || congruence. Qed.

(** Not so for the errors of plugins: the text of [InvalidArgument] and [Other]
    is the plugin's own and can be that of any other error, also one of the
    database or of a panic. *)
Theorem C60_plugin_text_refuted :
  ~ (forall e e', plugin_text e = plugin_text e' -> e = e') /\
  (forall r p, exists e, plugin_text e = reason_text r p).
Proof.
  split.
  - intros F. specialize (F (PlInvalidArgument "x") (PlOther "x") eq_refl). discriminate F.
  - intros r p. exists (PlInvalidArgument (reason_text r p)). reflexivity.
Qed.
(** Among the errors a plugin passes on ([?] on JSON and database errors) the
    text decides. *)
Theorem C60_plugin_passed_text_partial e p e' p' q q' :
  (plugin_text (PlIndraDB e p) = plugin_text (PlIndraDB e' p') -> e = e' /\ (has_inner e = true -> p = p')) /\
  (plugin_text (PlJson q) = plugin_text (PlJson q') -> q = q') /\
  plugin_text (PlJson q) <> plugin_text (PlIndraDB e p).
Proof.
  cbn [plugin_text String.append]. split; [|split].
  - intros E. injection E as E. now apply C60_error_text in E.
  - intros E. now injection E.
  - discriminate.
Qed.

(** [source] gives the error inside, and the text of the error ends with it. *)
Theorem C60_source e p q : error_source e p = Some q -> exists pre, error_text e p = (pre ++ q)%string.
Proof.
  destruct e; cbn [error_source error_text]; intros E; inversion E; subst; [eexists; reflexivity|eexists; reflexivity|].
  now exists ""%string.
Qed.
Theorem C60_source_none e p : error_source e p = None <-> has_inner e = false /\ (forall v, e <> Invalid v).
Proof.
  split.
  - intros E. destruct e; try discriminate E; split; try reflexivity; intros v0; discriminate.
  - intros [E N]. destruct e; try discriminate E; try reflexivity. elim (N v). reflexivity.
Qed.

(** ** What a malformed request is said to lack *)

Section Fault.
  Variable alnum : N -> bool.
  Variable dec : bytes -> option json.

  (** The parts of a message that can be wrong: the bytes of a uuid, an
      identifier or a JSON text, and a required field that is not set (by the
      name it has in indradb.proto). *)
  Inductive part := PaUuid (b : bytes) | PaIdent (b : bytes) | PaJson (b : bytes) | PaMissing (name : string).

  (** What is wrong with a part. *)
  Inductive faulty : part -> cerr -> Prop :=
  | fa_uuid b : length b <> 16%nat -> faulty (PaUuid b) CEUuid
  | fa_long b : (length b > 255)%nat -> faulty (PaIdent b) (CEValidation ValueTooLong)
  | fa_chars b : (length b <= 255)%nat ->
      ~ (exists cs, Forall scalar_value cs /\ b = flat_map utf8_enc cs /\
             Forall (fun c => c = 45%N \/ c = 95%N \/ alnum c = true) cs) ->
      faulty (PaIdent b) (CEValidation InvalidValue)
  | fa_json b : dec b = None -> faulty (PaJson b) CEJson
  | fa_missing name : faulty (PaMissing name) (CENoneField name).

  (** The parts of each message of indradb.proto.  [set]: a field that must be
      set; [opt]: one that need not. *)
  Definition set {A} (name : string) (f : A -> list part) (x : option A) : list part :=
    match x with Some a => f a | None => [PaMissing name] end.
  Definition opt {A} (f : A -> list part) (x : option A) : list part := match x with Some a => f a | None => [] end.
  Definition of_u (u : puuid) := [PaUuid (pu_value u)].
  Definition of_i (i : pident) := [PaIdent (pi_value i)].
  Definition of_j (v : pjson) := [PaJson (pj_value v)].
  Definition of_e (e : pedge) :=
    set "outbound_id" of_u (pe_outbound e) ++ set "t" of_i (pe_t e) ++ set "inbound_id" of_u (pe_inbound e).
  Definition of_v (v : pvertex) := set "id" of_u (pv_id v) ++ set "t" of_i (pv_t v).
  Fixpoint of_q (q : pquery) : list part :=
    let inner i := match i with Some i => of_q i | None => [PaMissing "inner"] end in
    match q with
    | PQNone => [PaMissing "query"]
    | PQAllVertex | PQAllEdge => []
    | PQRangeVertex _ t start => opt of_i t ++ opt of_u start
    | PQSpecificVertex ids => flat_map of_u ids
    | PQSpecificEdge es => flat_map of_e es
    | PQVertexWithPropertyPresence n | PQEdgeWithPropertyPresence n => set "name" of_i n
    | PQVertexWithPropertyValue n v | PQEdgeWithPropertyValue n v => set "name" of_i n ++ set "value" of_j v
    | PQPipe i _ _ t => inner i ++ opt of_i t
    | PQPipeProperty i n => inner i ++ opt of_i n
    | PQPipeWithPropertyPresence i n _ => inner i ++ set "name" of_i n
    | PQPipeWithPropertyValue i n v _ => inner i ++ set "name" of_i n ++ set "value" of_j v
    | PQInclude i | PQCount i => inner i
    end.
  Definition of_b (it : pbulk) : list part :=
    match it with
    | PBNone => [PaMissing "item"]
    | PBVertex v => of_v v
    | PBEdge e => of_e e
    | PBVertexProperty id n v => set "id" of_u id ++ set "name" of_i n ++ set "value" of_j v
    | PBEdgeProperty e n v => set "edge" of_e e ++ set "name" of_i n ++ set "value" of_j v
    end.
  Definition parts (rq : request) : list part :=
    match rq with
    | RqPing | RqSync => []
    | RqCreateVertex v => of_v v
    | RqCreateVertexFromType t => of_i t
    | RqCreateEdge e => of_e e
    | RqGet q | RqDelete q => of_q q
    | RqSetProperties r => set "q" of_q (psr_q r) ++ set "name" of_i (psr_name r) ++ set "value" of_j (psr_value r)
    | RqBulkInsert items => flat_map (fun x => match x with SOk it => of_b it | SErr _ => [] end) items
    | RqIndexProperty r => set "name" of_i (pir_name r)
    | RqExecutePlugin _ arg => opt of_j arg
    end.

  (** A conversion is honest about parts [l]: if it fails, with [e], then some
      part has that fault; if it succeeds, no part has a fault. *)
  Definition fault (l : list part) (e : cerr) : Prop := exists x, In x l /\ faulty x e.
  Definition honest {A} (c : cres A) (l : list part) : Prop :=
    match c with COk _ => forall e, ~ fault l e | CErr e => fault l e end.

  Lemma fault_app l r e : fault (l ++ r) e <-> fault l e \/ fault r e.
  Proof.
    unfold fault. split.
    - intros (x & Hin & F). apply in_app_iff in Hin as [H|H]; eauto.
    - intros [(x & H & F)|(x & H & F)]; exists x; rewrite in_app_iff; auto.
  Qed.
  Lemma honest_ok {A} (a : A) : honest (COk a) [].
  Proof. intros e (x & [] & _). Qed.
  Lemma honest_bind {A B} (c : cres A) (k : A -> cres B) l r :
    honest c l -> (forall a, c = COk a -> honest (k a) r) -> honest (cbind c k) (l ++ r).
  Proof.
    intros H K. destruct c as [a|e]; cbn in *.
    - specialize (K a eq_refl). destruct (k a) as [b|e]; cbn in *.
      + intros e F. apply fault_app in F as [F|F]; [now apply (H e)|now apply (K e)].
      + apply fault_app. now right.
    - apply fault_app. now left.
  Qed.
  Lemma honest_swap {A} (c : cres A) l r : honest c (l ++ r) -> honest c (r ++ l).
  Proof.
    destruct c as [a|e]; cbn.
    - intros H e F. apply (H e). apply fault_app. apply fault_app in F. tauto.
    - intros F. apply fault_app. apply fault_app in F. tauto.
  Qed.
  Lemma honest_ext {A} (c : cres A) l r : honest c l -> (forall x, In x l <-> In x r) -> honest c r.
  Proof.
    intros H E. destruct c as [a|e]; cbn in *.
    - intros e (x & Hin & F). apply (H e). exists x. split; [now apply E|assumption].
    - destruct H as (x & Hin & F). exists x. split; [now apply E|assumption].
  Qed.
  Lemma honest_uuid u : honest (of_uuid u) (of_u u).
  Proof.
    destruct (of_uuid u) as [a|e] eqn:E; cbn.
    - assert (wf_uuid u) as W by (apply acc_uuid; unfold accepted; eauto). unfold wf_uuid in W.
      intros e (x & [<-|[]] & F). inversion F; congruence.
    - assert (e = CEUuid /\ length (pu_value u) <> 16%nat) as [-> N].
      { unfold of_uuid, mk_uuid in E. destruct (bool_dec (Nat.eqb (length (pu_value u)) 16) true) as [e0|n]; [discriminate|].
        inversion E. split; [reflexivity|]. intros L. apply n. now apply Nat.eqb_eq. }
      exists (PaUuid (pu_value u)). split; [now left|now constructor].
  Qed.
  Lemma honest_ident i : honest (of_ident alnum i) (of_i i).
  Proof.
    unfold of_i. destruct (of_ident alnum i) as [x|e] eqn:E; cbn.
    - assert (wf_ident alnum i) as [L W] by (apply acc_ident; unfold accepted; eauto).
      intros e (y & [<-|[]] & F). inversion F; subst; [lia|contradiction].
    - exists (PaIdent (pi_value i)). split; [now left|].
      assert (~ wf_ident alnum i) as W by (rewrite <- acc_ident; intros (a & Ha); congruence).
      unfold of_ident, ident_new in E. destruct (Nat.ltb_spec 255 (length (pi_value i))) as [L|L].
      + inversion E. constructor. lia.
      + assert (e = CEValidation InvalidValue) as ->.
        { destruct (utf8_chars (pi_value i)) as [cs|]; [|now inversion E].
          destruct (negb (forallb (char_ok alnum) cs)); [now inversion E|].
          destruct (mk_ident (pi_value i)); now inversion E. }
        constructor; [assumption|]. intros X. apply W. split; assumption.
  Qed.
  Lemma honest_json v : honest (of_json dec v) (of_j v).
  Proof.
    unfold of_json, of_j. destruct (dec (pj_value v)) eqn:E; cbn.
    - intros e (x & [<-|[]] & F). inversion F. congruence.
    - exists (PaJson (pj_value v)). split; [now left|now constructor].
  Qed.
  (** A required field, converted. *)
  Lemma honest_set {A B} name (x : option A) (f : A -> cres B) g :
    (forall a, honest (f a) (g a)) -> honest (cbind (required name x) f) (set name g x).
  Proof.
    intros H. destruct x as [a|]; cbn; [apply H|]. exists (PaMissing name). split; [now left|constructor].
  Qed.
  Lemma honest_opt {A B} (x : option A) (f : A -> cres B) g : (forall a, honest (f a) (g a)) -> honest (coption f x) (opt g x).
  Proof.
    intros H. destruct x as [a|]; cbn [coption opt]; [|apply honest_ok]. specialize (H a). destruct (f a); exact H.
  Qed.
  Lemma honest_collect {A B} (l : list A) (f : A -> cres B) g :
    (forall a, honest (f a) (g a)) -> honest (ccollect f l) (flat_map g l).
  Proof.
    intros H. induction l as [|a l IH]; cbn [ccollect flat_map]; [apply honest_ok|].
    apply honest_bind; [apply H|]. intros b _. destruct (ccollect f l); exact IH.
  Qed.
  Lemma honest_ret {A B} (c : cres A) (f : A -> B) l : honest c l -> honest (cbind c (fun a => COk (f a))) l.
  Proof. destruct c; exact (fun H => H). Qed.
  (** A required field that is converted and then used. *)
  Lemma honest_field {A B C} name (x : option A) (f : A -> cres B) g (k : B -> cres C) r :
    (forall a, honest (f a) (g a)) -> (forall b, honest (k b) r) ->
    honest (cbind (required name x) (fun a => cbind (f a) k)) (set name g x ++ r).
  Proof.
    intros H K. destruct x as [a|]; cbn [required cbind set].
    - apply honest_bind; [apply H|]. auto.
    - apply fault_app. left. exists (PaMissing name). split; [now left|constructor].
  Qed.
  Lemma honest_field1 {A B C} name (x : option A) (f : A -> cres B) g (k : B -> C) :
    (forall a, honest (f a) (g a)) ->
    honest (cbind (required name x) (fun a => cbind (f a) (fun b => COk (k b)))) (set name g x).
  Proof. intros H. apply honest_set. intros a. apply honest_ret, H. Qed.
  Lemma honest_edge e : honest (of_edge alnum e) (of_e e).
  Proof.
    unfold of_edge, of_e. apply honest_field; [apply honest_uuid|]. intros o. apply honest_field; [apply honest_ident|].
    intros t. apply honest_field1, honest_uuid.
  Qed.
  Lemma honest_vertex v : honest (of_vertex alnum v) (of_v v).
  Proof. unfold of_vertex, of_v. apply honest_field; [apply honest_uuid|]. intros i. apply honest_field1, honest_ident. Qed.
  (** Two required fields, checked for presence first, then converted. *)
  Lemma honest_two {A B A' B' C} n1 n2 (x : option A) (y : option A') (f : A -> cres B) (f' : A' -> cres B') g g' (k : B -> B' -> C) :
    (forall a, honest (f a) (g a)) -> (forall a, honest (f' a) (g' a)) ->
    honest (cbind (required n1 x) (fun a => cbind (required n2 y) (fun a' =>
      cbind (f a) (fun b => cbind (f' a') (fun b' => COk (k b b')))))) (set n1 g x ++ set n2 g' y).
  Proof.
    intros H H'. destruct x as [a|]; cbn [required cbind set].
    - destruct y as [a'|]; cbn [required cbind set].
      + apply honest_bind; [apply H|]. intros b _. apply honest_ret, H'.
      + apply fault_app. right. exists (PaMissing n2). split; [now left|constructor].
    - apply fault_app. left. exists (PaMissing n1). split; [now left|constructor].
  Qed.
  Lemma missing_fault name l : In (PaMissing name) l -> fault l (CENoneField name).
  Proof. intros H. exists (PaMissing name). split; [assumption|constructor]. Qed.
  Lemma honest_query : forall q, honest (of_query alnum dec q) (of_q q).
  Proof.
    fix IH 1. intros q. destruct q as [| |l t s|ids|n|n v| |es|n|n v|i d l t|i n|i n b|i n v b|i|i]; cbn [of_query of_q].
    - apply missing_fault. now left.
    - apply honest_ok.
    - apply honest_bind; [apply honest_opt, honest_ident|]. intros t' _. apply honest_ret, honest_opt, honest_uuid.
    - apply honest_ret, honest_collect, honest_uuid.
    - apply honest_field1, honest_ident.
    - apply honest_two; [apply honest_ident|apply honest_json].
    - apply honest_ok.
    - apply honest_ret, honest_collect, honest_edge.
    - apply honest_field1, honest_ident.
    - apply honest_two; [apply honest_ident|apply honest_json].
    - apply honest_swap, honest_bind; [apply honest_opt, honest_ident|]. intros t' _. destruct i as [i|].
      + apply honest_ret, IH.
      + apply missing_fault. now left.
    - destruct i as [i|]; [|apply missing_fault; now left].
      apply honest_swap, honest_bind; [apply honest_opt, honest_ident|]. intros n' _. apply honest_ret, IH.
    - destruct i as [i|]; [|apply missing_fault; now left].
      destruct n as [n|]; cbn [required cbind set]; [|apply missing_fault, in_app_iff; right; now left].
      apply honest_bind; [apply IH|]. intros i' _. apply honest_ret, honest_ident.
    - destruct i as [i|]; [|apply missing_fault; now left].
      destruct n as [n|]; cbn [required cbind set]; [|apply missing_fault, in_app_iff; right; now left].
      destruct v as [v|]; cbn [required cbind set]; [|apply missing_fault; rewrite !in_app_iff; right; right; now left].
      apply honest_bind; [apply IH|]. intros i' _. apply honest_bind; [apply honest_ident|]. intros n' _.
      apply honest_ret, honest_json.
    - destruct i as [i|]; [|apply missing_fault; now left]. apply honest_ret, IH.
    - destruct i as [i|]; [|apply missing_fault; now left]. apply honest_ret, IH.
  Qed.
  Lemma honest_bulk it : honest (of_bulk alnum dec it) (of_b it).
  Proof.
    destruct it as [|v|e|id n v|e n v]; cbn [of_bulk of_b].
    - apply missing_fault. now left.
    - apply honest_ret, honest_vertex.
    - apply honest_ret, honest_edge.
    - apply honest_field; [apply honest_uuid|]. intros a. apply honest_field; [apply honest_ident|].
      intros b. apply honest_field1, honest_json.
    - apply honest_field; [apply honest_edge|]. intros a. apply honest_field; [apply honest_ident|].
      intros b. apply honest_field1, honest_json.
  Qed.

  Variable enc : json -> bytes.
  Variables St Env : Type.
  Variable step : St -> Env * op -> outcome res * St.
  Local Notation serve := (serve alnum enc dec step).


  (** The stream of a bulk insertion broke with this status. *)
  Definition broke (rq : request) (s : status) : Prop := exists items, rq = RqBulkInsert items /\ In (SErr s) items.

  (** The call of the database that a request asks for, by the conversions of the
      message's parts (C33). *)
  Inductive asks_for (fresh : uuid) : request -> op -> Prop :=
  | af_sync : asks_for fresh RqSync OSync
  | af_vertex m v : of_vertex alnum m = COk v -> asks_for fresh (RqCreateVertex m) (OCreateVertex v)
  | af_type m t : of_ident alnum m = COk t -> asks_for fresh (RqCreateVertexFromType m) (OCreateVertexFromType fresh t)
  | af_edge m e : of_edge alnum m = COk e -> asks_for fresh (RqCreateEdge m) (OCreateEdge e)
  | af_get m q : of_query alnum dec m = COk q -> asks_for fresh (RqGet m) (OGet q)
  | af_delete m q : of_query alnum dec m = COk q -> asks_for fresh (RqDelete m) (ODelete q)
  | af_set mq mn mv q n v : of_query alnum dec mq = COk q -> of_ident alnum mn = COk n -> of_json dec mv = COk v ->
      asks_for fresh (RqSetProperties (PSetReq (Some mq) (Some mn) (Some mv))) (OSetProperties q n v)
  | af_bulk ms l : Forall2 (fun m it => of_bulk alnum dec m = COk it) ms l ->
      asks_for fresh (RqBulkInsert (map SOk ms)) (OBulkInsert l)
  | af_index m n : of_ident alnum m = COk n -> asks_for fresh (RqIndexProperty (PIndexReq (Some m))) (OIndexProperty n).
  (** The argument a plugin is called with: null if there is none. *)
  Definition argument (arg : option pjson) (v : json) : Prop :=
    match arg with Some a => of_json dec a = COk v | None => v = jnull end.

  (** A status the server reports, whatever the datastore and the plugins:
      - [invalid_argument]: the message names a fault the request really has,
        and nothing happened;
      - [not_found]: the plugin asked for does not exist, and nothing happened;
      - [internal]: the one call made to the database failed with the error in the
        message or panicked, or the plugin returned the error in the message; the
        database is as the call or the plugin left it;
      - anything else: the stream broke, and nothing happened, or the plugin
        panicked. *)
  Definition explained (ps : plugins St) (st : St) (env : Env) (fresh : uuid) (rq : request) (s : status) (st' : St) : Prop :=
    match s with
    | SInvalidArgument e => fault (parts rq) e /\ st' = st
    | SNotFound => (exists name arg, rq = RqExecutePlugin name arg /\ find_plugin name ps = None) /\ st' = st
    | SInternal (BecauseError e) => exists o, asks_for fresh rq o /\ step st (env, o) = (Err e, st')
    | SInternal BecausePanic => exists o, asks_for fresh rq o /\ step st (env, o) = (Panic, st')
    | SInternal (BecausePlugin e) =>
      exists name arg p v, rq = RqExecutePlugin name arg /\ argument arg v /\ find_plugin name ps = Some p /\ p st v = (Err e, st')
    | STransport => exists name arg p v, rq = RqExecutePlugin name arg /\ argument arg v /\ find_plugin name ps = Some p /\ p st v = (Panic, st')
    end.

  Lemma blocking_explained ps st env fresh rq o k s st' :
    asks_for fresh rq o -> blocking step st env o k = (SErr s, st') -> explained ps st env fresh rq s st'.
  Proof.
    unfold blocking. intros Ha. destruct (step st (env, o)) as [r st1] eqn:E. destruct r as [a|e|]; intros X; inversion X; subst; cbn; eauto.
  Qed.
  Lemma converted_explained {A} ps st env fresh rq (c : cres A) k s st' :
    honest c (parts rq) -> (forall a, c = COk a -> k a = (SErr s, st') -> explained ps st env fresh rq s st') ->
    converted st c k = (SErr s, st') -> explained ps st env fresh rq s st'.
  Proof.
    destruct c as [a|e]; intros H K X; unfold converted in X.
    - exact (K a eq_refl X).
    - inversion X; subst. split; [exact H|reflexivity].
  Qed.
  Lemma honest_stream items : (forall s, ~ In (SErr s) items) ->
    match read_stream alnum dec items with
    | SOk _ => forall e, ~ fault (parts (RqBulkInsert items)) e
    | SErr s => exists e, s = SInvalidArgument e /\ fault (parts (RqBulkInsert items)) e
    end.
  Proof.
    induction items as [|[it|s] items IH]; intros N; cbn [read_stream parts flat_map].
    - exact (honest_ok tt).
    - pose proof (honest_bulk it) as H. destruct (of_bulk alnum dec it) as [a|e]; cbn in H.
      + assert (forall s, ~ In (SErr s) items) as N' by (intros s Hs; apply (N s); now right). specialize (IH N').
        cbn [parts] in IH. destruct (read_stream alnum dec items) as [l|s].
        * intros e F. apply fault_app in F as [F|F]; [now apply (H e)|now apply (IH e)].
        * destruct IH as (e & -> & F). exists e. split; [reflexivity|]. apply fault_app. now right.
      + exists e. split; [reflexivity|]. apply fault_app. now left.
    - elim (N s). now left.
  Qed.
  Lemma stream_status items s : read_stream alnum dec items = SErr s ->
    In (SErr s) items \/ exists e, s = SInvalidArgument e /\ fault (parts (RqBulkInsert items)) e.
  Proof.
    induction items as [|[it|s'] items IH]; cbn [read_stream parts flat_map]; intros X; [discriminate| |].
    - pose proof (honest_bulk it) as H. destruct (of_bulk alnum dec it) as [a|e]; cbn in H.
      + destruct (read_stream alnum dec items) as [l|s1]; [discriminate|]. inversion X; subst.
        destruct (IH eq_refl) as [Hin|(e & -> & F)]; [left; now right|]. right. exists e. split; [reflexivity|].
        apply fault_app. now right.
      + inversion X; subst. right. exists e. split; [reflexivity|]. apply fault_app. now left.
    - inversion X; subst. left. now left.
  Qed.
  Lemma honest_arg arg : honest (match arg with Some a => of_json dec a | None => COk jnull end) (opt of_j arg).
  Proof. destruct arg as [a|]; cbn [opt]; [apply honest_json|apply honest_ok]. Qed.
  Lemma honest_set_req r : honest (of_set_req alnum dec r) (parts (RqSetProperties r)).
  Proof.
    unfold of_set_req. cbn [parts]. apply honest_field; [apply honest_query|]. intros q.
    apply honest_field; [apply honest_ident|]. intros n. apply honest_field1, honest_json.
  Qed.

  Lemma set_req_parts r q n v : of_set_req alnum dec r = COk (q, n, v) ->
    exists mq mn mv, r = PSetReq (Some mq) (Some mn) (Some mv) /\
      of_query alnum dec mq = COk q /\ of_ident alnum mn = COk n /\ of_json dec mv = COk v.
  Proof.
    destruct r as [mq mn mv]. unfold of_set_req. cbn [psr_q psr_name psr_value].
    destruct mq as [mq|]; cbn [required cbind]; [|discriminate].
    destruct (of_query alnum dec mq) as [q'|] eqn:Q; cbn [cbind]; [|discriminate].
    destruct mn as [mn|]; cbn [required cbind]; [|discriminate].
    destruct (of_ident alnum mn) as [n'|] eqn:I; cbn [cbind]; [|discriminate].
    destruct mv as [mv|]; cbn [required cbind]; [|discriminate].
    destruct (of_json dec mv) as [v'|] eqn:V; cbn [cbind]; [|discriminate].
    intros E. inversion E; subst. eauto 10.
  Qed.
  Lemma stream_parts items l : read_stream alnum dec items = SOk l ->
    exists ms, items = map SOk ms /\ Forall2 (fun m it => of_bulk alnum dec m = COk it) ms l.
  Proof.
    revert l. induction items as [|[it|s] items IH]; intros l; cbn [read_stream].
    - intros E. inversion E. exists []. split; [reflexivity|constructor].
    - destruct (of_bulk alnum dec it) as [a|e] eqn:B; [|discriminate].
      destruct (read_stream alnum dec items) as [l'|s]; [|discriminate]. intros E. inversion E; subst.
      destruct (IH l' eq_refl) as (ms & -> & F). exists (it :: ms). split; [reflexivity|]. now constructor.
    - discriminate.
  Qed.

  Theorem C60_status ps st env fresh rq s st' :
    serve ps st env fresh rq = (SErr s, st') ->
    broke rq s /\ st' = st \/ explained ps st env fresh rq s st'.
  Proof.
    intros E. destruct rq; cbn [Server.serve] in E; try discriminate E.
    - right. revert E. apply blocking_explained. constructor.
    - right. revert E. apply converted_explained; [apply honest_vertex|]. intros a Ea. apply blocking_explained. now constructor.
    - right. revert E. apply converted_explained; [apply honest_ident|]. intros a Ea. apply blocking_explained. now constructor.
    - right. revert E. apply converted_explained; [apply honest_edge|]. intros a Ea. apply blocking_explained. now constructor.
    - right. revert E. apply converted_explained; [apply honest_query|]. intros a _.
      destruct (step st (env, OGet a)) as [r0 st1]. discriminate.
    - right. revert E. apply converted_explained; [apply honest_query|]. intros a Ea. apply blocking_explained. now constructor.
    - right. revert E. apply converted_explained; [apply honest_set_req|]. intros [[q n] v] Ea.
      apply set_req_parts in Ea as (mq & mn & mv & -> & Eq & Ei & Ej). apply blocking_explained. now constructor.
    - destruct (read_stream alnum dec items) as [l|s0] eqn:R.
      + right. apply stream_parts in R as (ms & -> & F). revert E. apply blocking_explained. now constructor.
      + inversion E; subst. apply stream_status in R as [Hin|(e & -> & F)].
        * left. split; [now exists items|reflexivity].
        * right. cbn. auto.
    - right. revert E. apply converted_explained; [apply honest_set, honest_ident|]. intros a Ea. apply blocking_explained.
      destruct r as [[m|]]; [|discriminate Ea]. now constructor.
    - right. revert E. apply converted_explained; [apply honest_arg|]. intros v Ev.
      assert (argument arg v) as Ha by (destruct arg; cbn; congruence).
      destruct (find_plugin name ps) as [p|] eqn:F.
      + destruct (p st v) as [r0 st1] eqn:P. destruct r0; intros X; inversion X; subst; cbn; eauto 9.
      + intros X; inversion X; subst; cbn. eauto 6.
  Qed.

  (** The stream a [get] is answered with: the values, or one status telling the
      error of the call, or nothing if the call panicked. *)
  Theorem C60_get ps st env fresh q l st' : serve ps st env fresh (RqGet q) = (SOk (RsStream l), st') ->
    (forall e, ~ fault (of_q q) e) /\
    ((forall s, ~ In (SErr s) l) \/ exists e q', l = [SErr (SInternal (BecauseError e))] /\ of_query alnum dec q = COk q' /\ step st (env, OGet q') = (Err e, st')).
  Proof.
    cbn [Server.serve]. pose proof (honest_query q) as H. destruct (of_query alnum dec q) as [q'|e] eqn:Eq; cbn in *; [|discriminate].
    destruct (step st (env, OGet q')) as [r st1] eqn:E. intros X. split; [assumption|].
    destruct r as [a|e|]; inversion X; subst; [left|right|left].
    - intros s Hin. apply in_map_iff in Hin as (x & C & _). discriminate.
    - eauto.
    - intros s [].
  Qed.

  (** Exactly the requests with a fault are refused as invalid. *)
  Theorem C60_malformed ps st env fresh rq : (forall s, ~ broke rq s) ->
    ((exists e, fault (parts rq) e) <->
     exists e, serve ps st env fresh rq = (SErr (SInvalidArgument e), st) /\ fault (parts rq) e).
  Proof.
    intros NB. split; [|intros (e & _ & F); eauto]. intros (e & F).
    assert (forall A (c : cres A) k, honest c (parts rq) -> 
      exists e0, converted (St := St) st c k = (SErr (SInvalidArgument e0), st) /\ fault (parts rq) e0) as CV.
    { intros A c k Hc. destruct c as [a|e0]; cbn in Hc |- *; [elim (Hc e F)|eauto]. }
    destruct rq; cbn [Server.serve].
    - destruct F as (x & [] & _).
    - destruct F as (x & [] & _).
    - apply CV, honest_vertex.
    - apply CV, honest_ident.
    - apply CV, honest_edge.
    - apply CV, honest_query.
    - apply CV, honest_query.
    - apply CV, honest_set_req.
    - assert (forall s, ~ In (SErr s) items) as N by (intros s Hs; apply (NB s); exists items; auto).
      pose proof (honest_stream items N) as Hs. destruct (read_stream alnum dec items) as [l|s]; [elim (Hs e F)|].
      destruct Hs as (e0 & -> & F0). eauto.
    - apply CV. cbn [parts]. apply honest_set, honest_ident.
    - apply CV, honest_arg.
  Qed.
End Fault.

(** ** Remote errors are the local ones *)

Section Remote.
  Variable alnum : N -> bool.
  Variable enc : json -> bytes.
  Variable dec : bytes -> option json.
  Variables St Env : Type.
  Variable step : St -> Env * op -> outcome res * St.

  (** A client's call on a server over any datastore: the local call fails with
      error [e] if and only if the remote call fails with code [internal] and a
      message that is the text of [e]. *)
  Theorem C60_remote_error ps st env fresh c o r st' :
    kinded step -> db_call fresh c = Some o -> sendable alnum enc dec (call_idents c) (call_values c) ->
    step st (env, o) = (r, st') ->
    (forall l, r = Ok (ROut l) -> Forall (sendable_out alnum enc dec) l) ->
    exists a, remote alnum enc dec step ps st env fresh c = (a, st') /\
      forall e p, r = Err e <->
        exists s, a = ClErr (CGrpc s) /\ code s = CodeInternal /\ message s p = error_text e p.
  Proof.
    intros K D W E A. destruct (@C35_remote_is_local_partial alnum enc dec St Env step ps st env fresh c o r st' K D W E A) as (a & R & RR).
    exists a. split; [assumption|]. intros e p. split.
    - intros ->. inversion RR; subst. eexists. split; [reflexivity|]. split; reflexivity.
    - intros (s & -> & C & M). inversion RR; subst; cbn [message reason_text] in M.
      + apply C60_error_text in M as [-> _]. reflexivity.
      + destruct e as [| | | | |[]|]; discriminate M.
  Qed.
End Remote.

(** A memory server: a lookup by a property that is not indexed, as the client
    sees it, and the hypotheses of [C60_remote_error] for it. *)
Example C60_remote_case :
  let q := QVertexWithPropertyPresence n_name in
  exists s,
    fst (remote alnum0 enc0 dec0 (mem_step true) [] (Some mem_empty) id_order u1 (CGet q)) = ClErr (CGrpc s) /\
    code s = CodeInternal /\ message s "" = "query attempted on a property that isn't indexed"%string.
Proof.
  intros q.
  destruct (@C60_remote_error alnum0 enc0 dec0 _ _ (mem_step true) [] (Some mem_empty) id_order u1 (CGet q)
    (OGet q) (Err NotIndexed) (Some mem_empty) (@mem_kinded true)) as (a & -> & I).
  - reflexivity.
  - split; cbn; repeat (apply Forall_cons; [apply ascii_valid; reflexivity|]); apply Forall_nil.
  - reflexivity.
  - intros l E. discriminate E.
  - destruct (proj1 (I NotIndexed ""%string) eq_refl) as (s & -> & C & M). exists s. auto.
Qed.
(** A vertex without a type, and one with an id of 15 bytes and no type. *)
Example C60_malformed_case ps st env fresh :
  let serve := serve alnum0 enc0 dec0 (mem_step true) ps st env fresh in
  serve (RqCreateVertex (PVertex (Some (to_uuid u1)) None)) = (SErr (SInvalidArgument (CENoneField "t")), st) /\
  message (SInvalidArgument (CENoneField "t")) "" = "proto field 't' should not be none"%string /\
  parts (RqCreateVertex (PVertex (Some (PUuid (repeat Byte.x00 15))) None)) = [PaUuid (repeat Byte.x00 15); PaMissing "t"] /\
  serve (RqCreateVertex (PVertex (Some (PUuid (repeat Byte.x00 15))) None)) = (SErr (SInvalidArgument CEUuid), st).
Proof. cbv zeta. conj; reflexivity. Qed.
