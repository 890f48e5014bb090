(** * C57: floating-point numbers in property values

    What the writer and the reader of FloatText.v (ryu, serde_json without
    [float_roundtrip]) do to the floats in a property value, and what follows
    for RocksDB and gRPC, which keep and send values as text. *)
From Verif Require Import Base OMap Json Types Util Db Mem Rdb Spec QueryFacts SpecFacts JsonFacts UtilFacts
  MemFacts MemRefine MemHist KeyFacts RdbSpec RdbRep RdbWrite RdbPut RdbRefine RdbGraph RdbHist RdbCrash Stages Effects
  Claims PropsMem Examples PropsMemIndex PropsRdb PropsRdbIndex PropsData Utf8 Proto ProtoFacts Server Clean PropsProto JsonText PropsText
  F64 FloatText FloatFacts FloatClose FloatTotal FloatValues FloatAny.

Set Implicit Arguments.
Local Open Scope list_scope.
Local Open Scope Z_scope.
Local Notation bytes := (list byte).
Local Notation to_text := (JsonText.to_text format64).
Local Notation of_text := (JsonText.of_text read_f64).

(** ** Specification *)

(** [bits] is an [f64] whose absolute value is the double nearest (F64.v,
    [nearest]) to a decimal of few digits: [m / 10^p], or [m * 10^j] from 10^16 up. *)
Definition short (bits : N) : Prop :=
  (bits < 2 ^ 64)%N /\
  exists m, 0 <= m <= 10 ^ 15 /\
    ((exists p, 0 <= p <= 22 /\ nearest m (10 ^ p) (magnitude_of bits)) \/
     (exists j, 0 <= j /\ 10 ^ 16 <= m * 10 ^ j <= 10 ^ 22 /\ nearest (m * 10 ^ j) 1 (magnitude_of bits))).
Definition short_floats (v : json) : Prop := Forall short (floats (jraw v)).

(** Two finite floats of the same sign that differ by at most 2^-49 of the first
    plus 2^-1073 ([scaled] is the absolute value times 2^1074). *)
Definition near_float (x y : N) : Prop :=
  negative y = negative x /\
  2 ^ 49 * Z.abs (scaled (magnitude_of y) - scaled (magnitude_of x)) <= scaled (magnitude_of x) + 2 * 2 ^ 49.
(** Two values that are the same but for near floats. *)
Inductive near : raw -> raw -> Prop :=
| near_same v : near v v
| near_flt x y : near_float x y -> near (RFlt x) (RFlt y)
| near_arr l l' : Forall2 near l l' -> near (RArr l) (RArr l')
| near_obj l l' : Forall2 (fun a b => fst a = fst b /\ near (snd a) (snd b)) l l' -> near (RObj l) (RObj l').

(** ** Values with short floats survive *)

Lemma short_float_ok bits : short bits -> float_ok format64 read_f64 bits.
Proof.
  intros (B & m & M & [(p & P & N0)|(j & J & V & N0)]).
  - assert (0 < 10 ^ p) as Pp by (apply Z.pow_pos_nonneg; lia). apply (@short_ok bits m p B M P).
    + assert (1 * 10 ^ 0 <= 1 * 10 ^ p) by (apply Z.mul_le_mono_nonneg_l; [lia|apply Z.pow_le_mono_r; lia]).
      assert (10 ^ 15 * 1 <= 10 ^ 15 * 10 ^ p) by (apply Z.mul_le_mono_nonneg_l; lia). lia.
    + apply rnd_is; [lia|assumption|exact N0].
  - apply (@large_ok bits m j B M J V). apply rnd_is; [lia|lia|exact N0].
Qed.
Lemma short_plain v : short_floats v -> (depth (jraw v) <= 127)%nat -> plain format64 read_f64 v.
Proof. intros F D. split; [|exact D]. eapply Forall_impl; [|exact F]. exact short_float_ok. Qed.

(** A float with a short decimal expansion, and a whole value of them. *)
Theorem C57_short bits : short bits -> read_f64 (format64 bits) = Some bits.
Proof.
  intros S0. destruct (short_float_ok S0) as [_ X]. specialize (X [] I). rewrite app_nil_r in X.
  destruct (number_token _ _ X) as (t & E & F & _). rewrite app_nil_r in E. now rewrite E.
Qed.
Theorem C57_values v : short_floats v -> (depth (jraw v) <= 127)%nat -> of_text (to_text v) = Some v.
Proof. intros F D. apply C42_text_roundtrip. now apply short_plain. Qed.

(** ** No two values have the same text *)
Theorem C57_distinct v w : to_text v = to_text w -> v = w.
Proof.
  assert (forall x : json, floats_ok format64 (read_signed ideal) x) as F.
  { intros x. eapply Forall_impl; [|exact (floats_wf _ (proj2_sig x))]. intros b. apply ideal_ok. }
  apply (@C42_text_injective format64 (read_signed ideal)); apply F.
Qed.

(** ** Every value is read again, as a value that differs only in its floats, and
    those are near *)
Lemma near_back v : wf_raw v = true -> near v (refloat back v).
Proof.
  induction v as [|b|n|z|b|s|l IH|l IH] using raw_nested; intros W; try apply near_same.
  - cbn [refloat]. apply near_flt. unfold back. destruct (read_written _ W) as (y & -> & Ng & Cl). split; assumption.
  - cbn [refloat]. apply near_arr. cbn [wf_raw] in W. rewrite forallb_forall in W. clear - IH W.
    induction l as [|x l IHl]; [constructor|]. apply Forall_cons_iff in IH as [I1 I2]. cbn [map]. constructor; [apply I1, W; now left|]. apply IHl; auto. intros y Hy. apply W. now right.
  - cbn [refloat]. apply near_obj. cbn [wf_raw] in W. apply andb_true_iff in W as [_ W]. rewrite forallb_forall in W. clear - IH W.
    induction l as [|x l IHl]; [constructor|]. apply Forall_cons_iff in IH as [I1 I2]. cbn [map]. constructor.
    + split; [reflexivity|]. cbn [snd]. apply I1. specialize (W x (or_introl eq_refl)). apply andb_true_iff in W as [_ W]. exact W.
    + apply IHl; auto. intros y Hy. apply W. now right.
Qed.
Theorem C57_near v : (depth (jraw v) <= 127)%nat -> exists w, of_text (to_text v) = Some w /\ near (jraw v) (jraw w).
Proof.
  intros D. destruct (read_text_back v D) as (w & R & E). exists w. split; [exact R|]. rewrite E. apply near_back. exact (proj2_sig v).
Qed.
Theorem C57_readable v : of_text (to_text v) <> None <-> (depth (jraw v) <= 127)%nat.
Proof.
  split.
  - intros R. destruct (le_lt_dec (depth (jraw v)) 127) as [|G]; [assumption|]. exfalso. apply R. apply too_deep. lia.
  - intros D. destruct (C57_near v D) as (w & -> & _). discriminate.
Qed.

(** Any text that is accepted is a value that can exist (no infinity, no NaN);
    what was refused had a float out of range or bad syntax. *)
Theorem C57_read_valid s : of_text s = None <-> read read_f64 s = None.
Proof. apply C42_read_valid. exact read_finite. Qed.

(** Any number that may be sent, typed or stored: a sign, an integer part, a
    fraction and an exponent (RFC 8259, section 6), of any number of digits.  Its
    absolute value is [V * 10^q].  Integers that fit 64 bits are read exactly;
    anything else is read as a float of the same sign within 2^-49 (and 2^-1073)
    of its value, unless it is 2^1024 or (up to 2^-50 of it) close to that. *)
Theorem C57_number (neg : bool) ip fr ex :
  int_part ip -> frac_part fr -> exp_part ex -> Z.of_nat (length (ip ++ fr ++ ex)) < 2 ^ 30 ->
  let V := Z.of_N (value_of (ip ++ tl fr)) in
  let q := exp_val ex - Z.of_nat (length (tl fr)) in
  let n := V * 10 ^ Z.max 0 q in
  let d := 10 ^ Z.max 0 (- q) in
  match read read_f64 ((if neg then [x2d] else []) ++ ip ++ fr ++ ex) with
  | Some (RPos k) => neg = false /\ fr = [] /\ ex = [] /\ Z.of_N k = V
  | Some (RNeg z) => neg = true /\ fr = [] /\ ex = [] /\ z = - V
  | Some (RFlt b) => negative b = neg /\
      2 ^ 49 * Z.abs (scaled (magnitude_of b) * d - n * 2 ^ 1074) <= n * 2 ^ 1074 + 2 * 2 ^ 49 * d
  | Some _ => False
  | None => (2 ^ 50 - 1) * 2 ^ 1024 * d <= 2 ^ 50 * n
  end.
Proof. intros I0 F X L. exact (@number_answer neg ip fr ex I0 F X L). Qed.

(** ** RocksDB *)

(** Histories that write only values with short floats, at most 127 deep: all the
    theorems about RocksDB apply to them. *)
Definition short_value (v : json) : Prop := short_floats v /\ (depth (jraw v) <= 127)%nat.
Definition short_history (h : list (renv * op)) : Prop := Forall (fun x => Forall short_value (written (snd x))) h.
Theorem C57_rdb_good_history h : short_history h -> good_history to_text of_text h.
Proof.
  intros F. apply C42_rdb_good_history. eapply Forall_impl; [|exact F]. intros x Fx. eapply Forall_impl; [|exact Fx]. intros v [S0 D]. now apply short_plain.
Qed.
(** In particular a property that was set is read back exactly, *)
Theorem C57_rdb_set_get H h env env' q n x vs r s' :
  let ops := rdb_ops H to_text of_text in let s := rdb_run H to_text of_text h in
  short_history h -> short_value x -> Stages.answer (ops env) s q = Ok (Vertices vs) ->
  exec (ops env) s (OSetProperties q n x) = (r, s') -> r <> Err EDatastore ->
  forall v, In v vs -> db_get (ops env') s' (q_vprop (vid v) n) = Ok [VertexProperties [VProps v [NProp n x]]].
Proof.
  cbv zeta. intros Hh [Sx Dx] A E N v Hv.
  refine (proj1 (@C07_rdb_set_vertices_reads H to_text of_text h _ env q n x vs r s' env' _ A E N) v Hv).
  - now apply C57_rdb_good_history.
  - apply C57_values; assumption.
Qed.
(** reading fails only for the two query errors, and no call panics. *)
Theorem C57_rdb_reads H h env q :
  let ops := rdb_ops H to_text of_text env in let s := rdb_run H to_text of_text h in
  short_history h ->
  (exists outs, db_get ops s q = Ok outs) \/ db_get ops s q = Err OperationOnQuery \/ db_get ops s q = Err NotIndexed.
Proof. cbv zeta. intros Hh. apply C20_rdb_reads. now apply C57_rdb_good_history. Qed.

(** ** gRPC *)
Theorem C57_grpc_query alnum q : Forall (valid_ident alnum) (q_idents q) -> Forall short_value (q_values q) ->
  of_query alnum of_text (to_query to_text q) = COk q.
Proof.
  intros I V. apply C33_query. apply C33_text; [assumption|]. eapply Forall_impl; [|exact V]. intros v [S0 D]. now apply short_plain.
Qed.
Theorem C57_grpc_output alnum v : Forall (valid_ident alnum) (out_idents v) -> Forall short_value (out_values v) ->
  of_out alnum of_text (to_out to_text v) = COk v.
Proof.
  intros I V. apply C33_output. apply C33_text; [assumption|]. eapply Forall_impl; [|exact V]. intros w [S0 D]. now apply short_plain.
Qed.

(** ** What is false *)

(** 9007199254740991.0, that is 2^53 - 1, and 9007199254740990.0 *)
Definition j_odd : json := exist _ (RFlt 0x433FFFFFFFFFFFFF) eq_refl.
Definition j_even : json := exist _ (RFlt 0x433FFFFFFFFFFFFE) eq_refl.
Lemma odd_text : to_text j_odd = [x39; x30; x30; x37; x31; x39; x39; x32; x35; x34; x37; x34; x30; x39; x39; x31; x2e; x30].
Proof. vm_compute. reflexivity. Qed.
Lemma of_text_raw t (w : json) : read read_f64 t = Some (jraw w) -> of_text t = Some w.
Proof.
  intros R. unfold JsonText.of_text. rewrite R. destruct (Bool.bool_dec (wf_raw (jraw w)) true) as [E|N0]; [|destruct N0; exact (proj2_sig w)].
  apply (f_equal Some). now apply (@bsub_eq raw wf_raw).
Qed.
Lemma odd_read : of_text (to_text j_odd) = Some j_even.
Proof. apply of_text_raw. vm_compute. reflexivity. Qed.
Theorem C57_exact_refuted : exists v w, of_text (to_text v) = Some w /\ w <> v.
Proof. exists j_odd, j_even. split; [exact odd_read|]. intros E. apply (f_equal (@jraw)) in E. discriminate E. Qed.

(** *** In RocksDB *)
Definition saw_prop (o : outcome (list outv)) : option (bytes * bytes * bytes * raw) :=
  match o with
  | Ok [VertexProperties [VProps v [NProp n x]]] => Some (proj1_sig (vid v), proj1_sig (vt v), proj1_sig n, jraw x)
  | _ => None
  end.
Definition saw_vertices (o : outcome (list outv)) : option (list (bytes * bytes)) :=
  match o with Ok [Vertices vs] => Some (map (fun v => (proj1_sig (vid v), proj1_sig (vt v))) vs) | _ => None end.
Lemma saw_prop_is o v n x : saw_prop o = Some (proj1_sig (vid v), proj1_sig (vt v), proj1_sig n, jraw x) -> o = Ok [VertexProperties [VProps v [NProp n x]]].
Proof.
  destruct o as [[|[ | | |[|[w [|[m y] [|]]] [|]]|] [|]]| |]; try discriminate. cbn [saw_prop]. intros E. inversion E as [[E1 E2 E3 E4]].
  destruct w as [wi wt], v as [vi vt0]. cbn in *. apply bsub_eq in E1, E2, E3. apply (@bsub_eq raw wf_raw) in E4. now subst.
Qed.
Lemma saw_vertices_is o vs : saw_vertices o = Some (map (fun v => (proj1_sig (vid v), proj1_sig (vt v))) vs) -> o = Ok [Vertices vs].
Proof.
  destruct o as [[|[l| | | |] [|]]| |]; try discriminate. cbn [saw_vertices]. intros E. do 3 f_equal. inversion E as [E'].
  clear E. revert vs E'. induction l as [|w l IH]; intros [|v vs] E; try discriminate; [reflexivity|]. cbn [map] in E. inversion E as [[E1 E2 E3]].
  f_equal; [|now apply IH]. destruct w as [wi wt], v as [vi vt0]. cbn in *. apply bsub_eq in E1, E2. now subst.
Qed.

(** A property set to 2^53 - 1 is read as another number; once it is overwritten,
    a lookup by its old value still finds the vertex. *)
Theorem C57_rdb_refuted : exists h v n x y z,
  let ops := rdb_ops hash0 to_text of_text ok_env in
  let s := rdb_run hash0 to_text of_text h in
  let s1 := snd (exec ops s (OSetProperties (q_vertex (vid v)) n x)) in
  let s2 := snd (exec ops s1 (OSetProperties (q_vertex (vid v)) n z)) in
  x <> y /\ json_eq z x = false /\
  db_get ops s1 (q_vprop (vid v) n) = Ok [VertexProperties [VProps v [NProp n y]]] /\
  db_get ops s1 (QVertexWithPropertyValue n y) = Ok [Vertices []] /\
  db_get ops s2 (q_vprop (vid v) n) = Ok [VertexProperties [VProps v [NProp n z]]] /\
  db_get ops s2 (QVertexWithPropertyValue n x) = Ok [Vertices [v]].
Proof.
  exists (ok_calls [OCreateVertex v1; OIndexProperty n_name]), v1, n_name, j_odd, j_even, j_bob. cbv zeta.
  conj.
  - intros E. apply (f_equal (@jraw)) in E. discriminate E.
  - vm_compute. reflexivity.
  - apply saw_prop_is. vm_compute. reflexivity.
  - apply saw_vertices_is. vm_compute. reflexivity.
  - apply saw_prop_is. vm_compute. reflexivity.
  - apply saw_vertices_is. vm_compute. reflexivity.
Qed.

(** *** On the wire *)
Theorem C57_grpc_refuted : exists v w, of_json of_text (to_json to_text v) = COk w /\ w <> v.
Proof.
  exists j_odd, j_even. split; [|intros E; apply (f_equal (@jraw)) in E; discriminate E].
  unfold of_json, to_json. cbn [pj_value]. rewrite odd_read. reflexivity.
Qed.

(** *** A number that is refused although the nearest double is finite:
    1.7976931348623158e308 *)
Definition max_text : bytes := [x31; x2e; x37; x39; x37; x36; x39; x33; x31; x33; x34; x38; x36; x32; x33; x31; x35; x38; x65; x33; x30; x38].
Theorem C57_accepts_refuted : exists t b,
  t = max_text /\ nearest (17976931348623158 * 10 ^ 292) 1 b /\ b < inf /\ read_f64 t = None /\ read read_f64 t = None.
Proof.
  exists max_text, (inf - 1). split; [reflexivity|]. split; [|split; [reflexivity|split; vm_compute; reflexivity]].
  rewrite <- largest_other. change (of_dec 17976931348623158 292) with (rnd (17976931348623158 * 10 ^ 292) 1). apply nearest_rnd; [|reflexivity].
  apply Z.mul_nonneg_nonneg; [discriminate|apply Z.pow_nonneg; discriminate].
Qed.

(** ** Concrete cases *)
Lemma short_by bits m p : (bits < 2 ^ 64)%N -> 0 <= m <= 10 ^ 15 -> 0 <= p <= 22 -> rnd m (10 ^ p) = magnitude_of bits -> short bits.
Proof.
  intros B M P E. split; [exact B|]. exists m. split; [exact M|]. left. exists p. split; [exact P|]. rewrite <- E. apply nearest_rnd; [lia|apply Z.pow_pos_nonneg; lia].
Qed.
Lemma short_large bits m j : (bits < 2 ^ 64)%N -> 0 <= m <= 10 ^ 15 -> 0 <= j -> 10 ^ 16 <= m * 10 ^ j <= 10 ^ 22 -> rnd (m * 10 ^ j) 1 = magnitude_of bits -> short bits.
Proof.
  intros B M J V E. split; [exact B|]. exists m. split; [exact M|]. right. exists j. split; [exact J|]. split; [exact V|]. rewrite <- E. apply nearest_rnd; lia.
Qed.

(** 0.1, -123456.789, 1e-22, -0.0, 1e20 *)
Example C57_case_short :
  Forall short [0x3FB999999999999A; 0xC0FE240C9FBE76C9; 0x3B5E392010175EE6; 0x8000000000000000; 0x4415AF1D78B58C40]%N /\
  map format64 [0x3FB999999999999A; 0xC0FE240C9FBE76C9; 0x3B5E392010175EE6; 0x8000000000000000; 0x4415AF1D78B58C40]%N =
  [[x30; x2e; x31]; [x2d; x31; x32; x33; x34; x35; x36; x2e; x37; x38; x39]; [x31; x65; x2d; x32; x32]; [x2d; x30; x2e; x30]; [x31; x65; x32; x30]] /\
  ~ short 0x433FFFFFFFFFFFFF.
Proof.
  split; [|split].
  - repeat apply Forall_cons; [| | | | |apply Forall_nil].
    + apply (@short_by _ 1 1); [reflexivity|lia|lia|vm_compute; reflexivity].
    + apply (@short_by _ 123456789 3); [reflexivity|lia|lia|vm_compute; reflexivity].
    + apply (@short_by _ 1 22); [reflexivity|lia|lia|vm_compute; reflexivity].
    + apply (@short_by _ 0 0); [reflexivity|lia|lia|vm_compute; reflexivity].
    + apply (@short_large _ 1 20); [reflexivity|lia|lia|lia|vm_compute; reflexivity].
  - vm_compute. reflexivity.
  - intros S0. apply C57_short in S0. assert (read_f64 (format64 0x433FFFFFFFFFFFFF) = Some 0x433FFFFFFFFFFFFE%N) as E by (vm_compute; reflexivity). congruence.
Qed.
(** A value with short floats, and a history that stores and reads it. *)
Definition j_point : json := exist _ (RObj [([x78], RFlt 0x3FB999999999999A); ([x79], RArr [RFlt 0xC0FE240C9FBE76C9; RNull])]) eq_refl.
Example C57_case_history :
  short_value j_point /\ short_history (ok_calls [OCreateVertex v1; OSetProperties (q_vertex u1) n_name j_point]) /\
  (let ops := rdb_ops hash0 to_text of_text ok_env in
   let s := rdb_run hash0 to_text of_text (ok_calls [OCreateVertex v1]) in
   Stages.answer ops s (q_vertex u1) = Ok (Vertices [v1]) /\ fst (exec ops s (OSetProperties (q_vertex u1) n_name j_point)) = Ok RUnit).
Proof.
  assert (short_value j_point) as P.
  { split; [|vm_compute; lia]. pose proof (proj1 C57_case_short) as F. inversion F as [|? ? S1 F1]; subst. inversion F1 as [|? ? S2 F2]; subst.
    unfold short_floats. change (floats (jraw j_point)) with [0x3FB999999999999A; 0xC0FE240C9FBE76C9]%N. constructor; [exact S1|]. constructor; [exact S2|constructor]. }
  split; [exact P|]. split; [|split; vm_compute; reflexivity].
  unfold short_history, ok_calls. cbn [map]. constructor; [constructor|]. constructor; [|constructor]. cbn [snd written]. constructor; [exact P|constructor].
Qed.

(** -12.345678901234567890123E+1, 1e400 and a large integer. *)
Example C57_case_number :
  (let ip := [x31; x32] in let fr := [x2e; x33; x34; x35; x36; x37; x38; x39; x30; x31; x32; x33; x34; x35; x36; x37; x38; x39; x30; x31; x32; x33] in let ex := [x45; x2b; x31] in
   int_part ip /\ frac_part fr /\ exp_part ex /\ read read_f64 ([x2d] ++ ip ++ fr ++ ex) = Some (RFlt 0xC05EDD3C07FB4C98)) /\
  (int_part [x31] /\ frac_part [] /\ exp_part [x65; x34; x30; x30] /\ read read_f64 ([] ++ [x31] ++ [] ++ [x65; x34; x30; x30]) = None) /\
  (int_part (repeat x37 25) /\ exists b, read read_f64 ([] ++ repeat x37 25 ++ [] ++ []) = Some (RFlt b)).
Proof.
  cbv zeta. conj.
  - exists x31, [x32]. repeat split. discriminate.
  - right. eexists. split; [reflexivity|]. split; [discriminate|reflexivity].
  - right. exists x45, [x2b], [x31]. conj; auto. discriminate.
  - vm_compute. reflexivity.
  - exists x31, []. repeat split.
  - now left.
  - right. exists x65, [], [x34; x30; x30]. conj; auto. discriminate.
  - vm_compute. reflexivity.
  - exists x37, (repeat x37 24). repeat split. discriminate.
  - eexists. vm_compute. reflexivity.
Qed.
