(** * Properties of the data model: C18 (next_uuid), C19 (storage keys),
    C30-C32 (property values), C36 (identifiers). *)
From Verif Require Import Base OMap Json Types Util Db Rdb JsonFacts JsonOrder UtilFacts KeyFacts Utf8 Examples.

Set Implicit Arguments.

(** ** C18 *)

(** On every UUID that is not the largest, [next_uuid] returns the least UUID
    above it. *)
Theorem C18_next_uuid_successor u :
  (exists w, lt u w) ->
  exists v, next_uuid u = Ok v /\ lt u v /\ forall w, lt u w -> w = v \/ lt v w.
Proof.
  intros [w Hw]. destruct (next_uuid_total u) as [[v E]|E].
  - exists v. split; [assumption|]. now apply next_uuid_succ.
  - exfalso. apply next_uuid_max in E. now apply E in Hw.
Qed.

(** On the largest UUID (all bits set) it fails, and only there. *)
Theorem C18_next_uuid_largest u :
  (next_uuid u = Err (Invalid CannotIncrementUuid) <-> ub u = repeat xff 16) /\
  (ub u = repeat xff 16 <-> forall w, ~ lt u w).
Proof.
  assert (uval umax + 1 = 256 ^ 16)%N as M by reflexivity.
  assert (ub u = repeat xff 16 <-> u = umax) as Eu.
  { split; [|intros ->; reflexivity]. intros E. apply ub_inj. exact E. }
  assert (u = umax <-> is_max u) as Em.
  { split.
    - intros -> w L. apply lt_uval in L. pose proof (uval_bound w). lia.
    - intros K. apply uval_inj. pose proof (uval_bound u). pose proof (uval_bound umax).
      destruct (N.lt_trichotomy (uval u) (uval umax)) as [L|[E|L]]; [|assumption|lia].
      exfalso. apply (K umax). now apply lt_uval. }
  split.
  - rewrite Eu, Em. symmetry. apply next_uuid_max.
  - rewrite Eu. exact Em.
Qed.

Example C18_case : (exists w, lt u1 w) /\ next_uuid u1 = Ok u2 /\ next_uuid umax = Err (Invalid CannotIncrementUuid).
Proof. split; [exists u2; reflexivity|]. split; reflexivity. Qed.
(** A carry over several bytes. *)
Definition u_carry : uuid := exist _ (repeat x00 13 ++ [x07; xff; xff]) eq_refl.
Example C18_carry : exists v, next_uuid u_carry = Ok v /\ ub v = repeat x00 13 ++ [x08; x00; x00].
Proof. eexists. split; reflexivity. Qed.

(** ** C19 *)

Section Keys.
  Variable H : list byte -> N.

  (** Different items get different keys.  Index keys carry 64 bits of hash in
      place of the value: they differ unless name, hash and element agree. *)
  Theorem C19_keys_injective :
    (forall a b : uuid, vertex_key H a = vertex_key H b -> a = b) /\
    (forall a b : edge, edge_key H a = edge_key H b -> a = b) /\
    (forall (a b : uuid) n m, vprop_key H a n = vprop_key H b m -> a = b /\ n = m) /\
    (forall (a b : edge) n m, eprop_key H a n = eprop_key H b m -> a = b /\ n = m) /\
    (forall n m v w (a b : uuid), vvalue_key H n v a = vvalue_key H m w b ->
       n = m /\ be64 (H (json_stream v)) = be64 (H (json_stream w)) /\ a = b) /\
    (forall n m v w (a b : edge), evalue_key H n v a = evalue_key H m w b ->
       n = m /\ be64 (H (json_stream v)) = be64 (H (json_stream w)) /\ a = b).
  Proof.
    split; [apply vertex_key_inj|]. split; [apply edge_key_inj|]. split.
    { intros a b n m E. apply (@vpk_inj H (a, n) (b, m)) in E. now inversion E. }
    split.
    { intros a b n m E. apply (@epk_inj H (a, n) (b, m)) in E. now inversion E. }
    split.
    - intros n m v w a b. rewrite !vvalue_key_eq. intros E. apply ik_prefix_free in E as [-> E].
      apply app_inj_len in E as [E1 E2]; [|now rewrite !hb_length]. apply ub_inj in E2. auto.
    - intros n m v w a b. rewrite !evalue_key_eq. intros E. apply ik_prefix_free in E as [-> E].
      apply app_inj_len in E as [E1 E2]; [|now rewrite !hb_length]. apply edge_key_inj in E2. auto.
  Qed.

  (** Every key (with its value) decodes to the item it was built for. *)
  Theorem C19_keys_decode (dec : bytes -> option json) :
    (forall id t, dec_vertex (vertex_key H id, build H [CIdent t]) = Ok (Vertex id t)) /\
    (forall e b, dec_edge (edge_key H e, b) = Ok e) /\
    (forall id n b v, dec b = Some v -> dec_vprop dec id (vprop_key H id n, b) = Ok (id, n, v)) /\
    (forall e n b v, dec b = Some v -> dec_eprop dec e (eprop_key H e n, b) = Ok (e, n, v)) /\
    (forall n v id b, dec_vvalue (vvalue_key H n v id, b) = Ok id) /\
    (forall n v e b, dec_evalue (evalue_key H n v e, b) = Ok e).
  Proof.
    split; [apply dec_vertex_ok|]. split; [apply dec_edge_ok|].
    split; [intros id n b v; apply (@dec_vprop_ok H dec id n b v)|].
    split; [intros e n b v; apply (@dec_eprop_ok H dec e n b v)|].
    split; intros n v x b.
    - rewrite vvalue_key_vvk. apply dec_vvalue_ok.
    - rewrite evalue_key_evk. apply dec_evalue_ok.
  Qed.

  (** A prefix scan returns exactly the entries of the owner (or name, or name
      and hash) the prefix was built from. *)
  Theorem C19_prefix_scan (c : cf) (p k v : bytes) :
    In (k, v) (scan_prefix c p p) <-> get k c = Some v /\ exists r, k = p ++ r.
  Proof. apply scan_prefix_In. Qed.

  Definition prefixed (p k : bytes) : Prop := exists r, k = p ++ r.

  Theorem C19_prefix_owner :
    (forall id e, prefixed (build H [CUuid id]) (edge_key H e) <-> eout e = id) /\
    (forall id t e, prefixed (build H [CUuid id; CIdent t]) (edge_key H e) <-> eout e = id /\ et e = t) /\
    (forall id id' n, prefixed (build H [CUuid id]) (vprop_key H id' n) <-> id' = id) /\
    (forall e e' n, prefixed (build H [CUuid (eout e); CIdent (et e); CUuid (ein e)]) (eprop_key H e' n) <-> e' = e) /\
    (forall n n' v id, prefixed (build H [CIdent n]) (vvalue_key H n' v id) <-> n' = n) /\
    (forall n n' v e, prefixed (build H [CIdent n]) (evalue_key H n' v e) <-> n' = n) /\
    (forall n n' v v' id, prefixed (build H [CIdent n; CJson v]) (vvalue_key H n' v' id) <->
       n' = n /\ be64 (H (json_stream v')) = be64 (H (json_stream v))) /\
    (forall n n' v v' e, prefixed (build H [CIdent n; CJson v]) (evalue_key H n' v' e) <->
       n' = n /\ be64 (H (json_stream v')) = be64 (H (json_stream v))).
  Proof.
    unfold prefixed.
    assert (forall n t, ik n = ik t ++ [] -> n = t) as Ik by (intros n t; rewrite app_nil_r; apply ik_inj).
    split; [|split; [|split; [|split; [|split; [|split; [|split]]]]]].
    - intros id e. rewrite prefix_uuid, edge_key_eq. split.
      + intros [r E]. now apply ub_prefix_free in E as [E _].
      + intros <-. eauto.
    - intros id t e. assert (build H [CUuid id; CIdent t] = ub id ++ ik t) as ->.
      { unfold build. cbn. rewrite app_nil_r. reflexivity. }
      rewrite edge_key_eq. split.
      + intros [r E]. rewrite <- app_assoc in E. apply ub_prefix_free in E as [E1 E]. apply ik_prefix_free in E as [E2 _]. auto.
      + intros [<- <-]. exists (ub (ein e)). now rewrite <- app_assoc.
    - intros id id' n. rewrite prefix_uuid, vprop_key_eq. split.
      + intros [r E]. now apply ub_prefix_free in E as [E _].
      + intros ->. eauto.
    - intros e e' n. change (build H [CUuid (eout e); CIdent (et e); CUuid (ein e)]) with (edge_key H e).
      rewrite eprop_key_eq. split.
      + intros [r E]. now apply edge_key_prefix_free in E as [E _].
      + intros ->. eauto.
    - intros n n' v id. rewrite prefix_ident, vvalue_key_eq. split.
      + intros [r E]. now apply ik_prefix_free in E as [E _].
      + intros ->. eauto.
    - intros n n' v e. rewrite prefix_ident, evalue_key_eq. split.
      + intros [r E]. now apply ik_prefix_free in E as [E _].
      + intros ->. eauto.
    - intros n n' v v' id. rewrite prefix_ident_json, vvalue_key_eq. split.
      + intros [r E]. rewrite <- app_assoc in E. apply ik_prefix_free in E as [E1 E].
        apply app_inj_len in E as [E _]; [|now rewrite !hb_length]. auto.
      + intros [-> E]. exists (ub id). rewrite <- app_assoc. unfold hb in *. now rewrite E.
    - intros n n' v v' e. rewrite prefix_ident_json, evalue_key_eq. split.
      + intros [r E]. rewrite <- app_assoc in E. apply ik_prefix_free in E as [E1 E].
        apply app_inj_len in E as [E _]; [|now rewrite !hb_length]. auto.
      + intros [-> E]. exists (edge_key H e). rewrite <- app_assoc. unfold hb in *. now rewrite E.
  Qed.
End Keys.

(** Without the length byte keys would be ambiguous; with it the edges
    1-a->(..) of types "a" and "ab" stay apart. *)
Definition t_a : ident := exist _ [x61] eq_refl.
Definition t_ab : ident := exist _ [x61; x62] eq_refl.
Example C19_case : forall H, edge_key H (Edge u1 t_a u2) <> edge_key H (Edge u1 t_ab u2) /\
  ~ prefixed (build H [CUuid u1; CIdent t_a]) (edge_key H (Edge u1 t_ab u2)).
Proof.
  intros H. split.
  - intros E. apply (proj1 (proj2 (C19_keys_injective H))) in E. discriminate.
  - intros P. apply (proj1 (proj2 (C19_prefix_owner H))) in P as [_ E]. discriminate.
Qed.

(** ** C36 *)

(** [Identifier::new] accepts exactly the strings (sequences of Unicode scalar
    values) of at most 255 bytes of UTF-8 whose characters are dashes,
    underscores or alphanumeric, and keeps the bytes. *)
Theorem C36_identifier_new (alnum : N -> bool) (s : list byte) (i : ident) :
  ident_new alnum s = VOk i <->
  ib i = s /\ (length s <= 255)%nat /\
  exists cs, Forall scalar_value cs /\ s = flat_map utf8_enc cs /\
             Forall (fun c => c = 45%N \/ c = 95%N \/ alnum c = true) cs.
Proof.
  unfold ident_new. destruct (Nat.ltb_spec 255 (length s)) as [L|L].
  { split; [discriminate|lia]. }
  assert (forall cs, forallb (char_ok alnum) cs = true <-> Forall (fun c => c = 45%N \/ c = 95%N \/ alnum c = true) cs) as CO.
  { intros cs. rewrite forallb_forall, Forall_forall. unfold char_ok.
    split; intros K c Hc; specialize (K c Hc); rewrite !orb_true_iff, !N.eqb_eq in *; tauto. }
  destruct (utf8_chars s) as [cs|] eqn:U.
  - destruct (forallb (char_ok alnum) cs) eqn:C; cbn [negb].
    + assert (ident_ok s = true) as Ok.
      { unfold ident_ok, utf8_valid. rewrite U, andb_true_r. now apply Nat.leb_le. }
      unfold mk_ident. destruct (bool_dec (ident_ok s) true) as [e|n]; [|contradiction].
      split.
      * intros E. inversion E; subst. cbn [ib proj1_sig]. split; [reflexivity|]. split; [assumption|].
        exists cs. apply utf8_chars_iff in U as [U1 U2]. split; [assumption|]. split; [assumption|]. now apply CO.
      * intros [E _]. f_equal. apply ib_inj. now rewrite E.
    + split; [discriminate|]. intros (_ & _ & cs' & F & E & Hc). exfalso.
      assert (utf8_chars s = Some cs') as U' by (apply utf8_chars_iff; auto). rewrite U in U'. inversion U'; subst cs'.
      apply CO in Hc. congruence.
  - split; [discriminate|]. intros (_ & _ & cs' & F & E & _). exfalso.
    assert (utf8_chars s = Some cs') as U' by (apply utf8_chars_iff; auto). congruence.
Qed.

(** The error tells which rule a string breaks; on strings (valid UTF-8). *)
Theorem C36_identifier_errors (alnum : N -> bool) (cs : list N) :
  Forall scalar_value cs ->
  let s := flat_map utf8_enc cs in
  ident_new alnum s = if (255 <? length s)%nat then VErr _ ValueTooLong
                      else if forallb (fun c => (c =? 45) || (c =? 95) || alnum c)%N cs
                           then match mk_ident s with Some i => VOk i | None => VErr _ InvalidValue end
                           else VErr _ InvalidValue.
Proof.
  intros F s. unfold ident_new. destruct (255 <? length s)%nat; [reflexivity|].
  assert (utf8_chars s = Some cs) as -> by (apply utf8_chars_iff; auto).
  unfold char_ok. destruct (forallb _ cs); reflexivity.
Qed.

(** An identifier survives both storage encodings. *)
Theorem C36_identifier_stored (H : list byte -> N) (i : ident) (r : bytes) :
  read_identifier (build H [CIdent i] ++ r) = Ok (i, r) /\ read_name (build H [CStr (ib i)]) = Ok i.
Proof.
  rewrite prefix_ident. split; [apply read_identifier_app|]. unfold build. cbn. rewrite app_nil_r. apply read_name_of.
Qed.

(** "naïve_1-é": accepted with the ASCII and Latin-1 letters and digits. *)
Definition latin_alnum (c : N) : bool :=
  ((48 <=? c) && (c <=? 57) || (65 <=? c) && (c <=? 90) || (97 <=? c) && (c <=? 122) || (192 <=? c) && (c <=? 255))%N.
Definition s_naive : list byte := flat_map utf8_enc [110; 97; 239; 118; 101; 95; 49; 45; 233]%N.
Example C36_case :
  (exists i, ident_new latin_alnum s_naive = VOk i /\ ib i = s_naive /\ length s_naive = 11%nat) /\
  ident_new latin_alnum [x61; x20] = VErr _ InvalidValue /\
  ident_new latin_alnum (repeat x61 256) = VErr _ ValueTooLong.
Proof. split; [eexists; repeat split; reflexivity|]. split; reflexivity. Qed.

(** ** C30 *)

(** Equality is reflexive and symmetric on all values; it is transitive, and
    equal values feed the same bytes to the hasher, on values without floats
    (where it is identity).  Transitivity also holds when every integer is
    exactly a double.  Missing: both fail in general, see below. *)
Theorem C30_json_eq_partial :
  (forall a, json_eq a a = true) /\
  (forall a b, json_eq a b = json_eq b a) /\
  (forall a b c, nums exact_num (jraw a) = true -> nums exact_num (jraw b) = true -> nums exact_num (jraw c) = true ->
     json_eq a b = true -> json_eq b c = true -> json_eq a c = true) /\
  (forall a b, no_floats (jraw a) = true -> no_floats (jraw b) = true ->
     json_eq a b = true <-> a = b) /\
  (forall a b, no_floats (jraw a) = true -> no_floats (jraw b) = true ->
     json_eq a b = true -> json_stream a = json_stream b).
Proof.
  assert (forall a b, no_floats (jraw a) = true -> no_floats (jraw b) = true -> json_eq a b = true <-> a = b) as Id.
  { intros a b Na Nb. split.
    - intros E. apply json_eq_iff in E. apply no_floats_eq in E; auto; try apply jraw_wf. now apply bsub_eq.
    - intros ->. apply json_eq_refl. }
  split; [apply json_eq_refl|]. split; [apply json_eq_sym|]. split; [|split].
  - intros a b c Ea Eb Ec E1 E2. apply json_eq_iff in E1, E2. apply json_eq_iff.
    exact (@pcmp_comb exact_num as_f64 exact_nums _ _ _ Eq Eq Eq (jraw_wf a) (jraw_wf b) (jraw_wf c) Ea Eb Ec E1 E2 eq_refl).
  - exact Id.
  - intros a b Na Nb E. apply Id in E; auto. now subst.
Qed.

(** The relation the in-memory hash index uses to find a key (equal and hashed
    alike) is an equivalence on all values. *)
Theorem C30_key_eq_equivalence_partial :
  (forall a, key_eq a a = true) /\ (forall a b, key_eq a b = key_eq b a) /\
  (forall a b c, key_eq a b = true -> key_eq b c = true -> key_eq a c = true).
Proof. split; [apply key_eq_refl|]. split; [apply key_eq_sym|apply key_eq_trans]. Qed.

(** Integers below 2^53 in absolute value are exact. *)
Theorem C30_small_ints_exact_partial v : is_int v = true -> (Z.abs (zval v) < 2 ^ 53)%Z -> nums exact_num v = true.
Proof.
  intros I B. destruct v; try discriminate; cbn [nums exact_num]; apply Z.eqb_eq, small_exact; assumption.
Qed.

Definition j_big : json := exist _ (RPos (2 ^ 53)) eq_refl.
Definition j_bigf : json := exist _ (RFlt 4845873199050653696) eq_refl.
Definition j_big1 : json := exist _ (RPos (2 ^ 53 + 1)) eq_refl.

Example C30_float_value : f64_scaled 4845873199050653696 = (2 ^ 53 * 2 ^ 1074)%Z.
Proof. vm_compute. reflexivity. Qed.

(** 2^53 (integer) = 2^53 (float) = 2^53 + 1 (integer), but 2^53 <> 2^53 + 1. *)
Theorem C30_transitive_refuted :
  exists a b c, json_eq a b = true /\ json_eq b c = true /\ json_eq a c = false.
Proof. exists j_big, j_bigf, j_big1. split; [|split]; vm_compute; reflexivity. Qed.

(** 3 = 3.0, but different bytes are hashed: the contract of [Eq] and [Hash]
    that [HashMap] relies on is broken. *)
Theorem C30_hash_refuted : exists a b, json_eq a b = true /\ json_stream a <> json_stream b.
Proof. exists j_3, j_3f. split; [vm_compute; reflexivity|]. vm_compute. discriminate. Qed.

(** Even two floats: 0.0 = -0.0 hash differently. *)
Theorem C30_hash_zero_refuted :
  exists a b x y, jraw a = RFlt x /\ jraw b = RFlt y /\ json_eq a b = true /\ json_stream a <> json_stream b.
Proof.
  exists (exist _ (RFlt 0) eq_refl : json), (exist _ (RFlt (2 ^ 63)) eq_refl : json), 0%N, (2 ^ 63)%N.
  split; [reflexivity|]. split; [reflexivity|]. split; vm_compute; [reflexivity|discriminate].
Qed.

(** ** C31 *)

(** Comparison is the one specified in JsonOrder.v, for all values. *)
Theorem C31_order_partial a b c : json_cmp a b = Some c <-> value_order (jraw a) (jraw b) c.
Proof. apply value_order_pcmp; apply jraw_wf. Qed.

(** Antisymmetric: swapping the arguments flips the answer, for all values;
    equality is the answer [Eq]. *)
Theorem C31_antisymmetric_partial a b :
  json_cmp b a = option_map CompOpp (json_cmp a b) /\ (json_eq a b = true <-> json_cmp a b = Some Eq).
Proof. split; [apply pcmp_sym; apply jraw_wf|apply json_eq_iff]. Qed.

(** Integers compare exactly, whatever their size and sign. *)
Theorem C31_integers_exact_partial a b :
  is_int (jraw a) = true -> is_int (jraw b) = true ->
  json_cmp a b = Some (Z.compare (zval (jraw a)) (zval (jraw b))).
Proof. intros Ia Ib. apply C31_order_partial. now constructor. Qed.

(** An integer is compared with a float as the double nearest to it, ties to even. *)
Theorem C31_int_to_double_partial n :
  representable (round53 n) /\
  (forall r, representable r -> (dist (round53 n) n <= dist r n)%N) /\
  (forall r, representable r -> r <> round53 n -> dist (round53 n) n = dist r n ->
     exists e q, round53 n = (q * 2 ^ e)%N /\ (2 ^ 52 <= q <= 2 ^ 53)%N /\ N.even q = true).
Proof. apply round53_nearest. Qed.

(** Transitive (all combinations of less, equal and greater) on values whose
    integers are exactly doubles, and on values without floats.  Missing: the
    general case is false, see below. *)
Theorem C31_transitive_partial a b c :
  (nums exact_num (jraw a) = true /\ nums exact_num (jraw b) = true /\ nums exact_num (jraw c) = true) \/
  (no_floats (jraw a) = true /\ no_floats (jraw b) = true /\ no_floats (jraw c) = true) ->
  (json_cmp a b = Some Lt \/ json_cmp a b = Some Eq) ->
  (json_cmp b c = Some Lt \/ json_cmp b c = Some Eq) ->
  json_cmp a c = Some (if json_eq a b then if json_eq b c then Eq else Lt else Lt).
Proof.
  intros Hn Hab Hbc.
  assert (forall c1 c2 r, json_cmp a b = Some c1 -> json_cmp b c = Some c2 -> comb c1 c2 = Some r -> json_cmp a c = Some r) as T.
  { intros c1 c2 r E1 E2 Ec. destruct Hn as [(N1 & N2 & N3)|(N1 & N2 & N3)].
    - exact (@pcmp_comb exact_num as_f64 exact_nums _ _ _ c1 c2 r (jraw_wf a) (jraw_wf b) (jraw_wf c) N1 N2 N3 E1 E2 Ec).
    - exact (@pcmp_comb is_int zval exact_ints _ _ _ c1 c2 r (jraw_wf a) (jraw_wf b) (jraw_wf c) N1 N2 N3 E1 E2 Ec). }
  unfold json_eq, raw_eq. unfold json_cmp in *.
  destruct Hab as [E1|E1], Hbc as [E2|E2]; rewrite E1, ?E2; apply (T _ _ _ E1 E2); reflexivity.
Qed.

(** [2^53+1, 0] < [2.0^53, 1] < [2^53, 2], but [2^53+1, 0] > [2^53, 2]. *)
Theorem C31_transitive_refuted :
  exists a b c, json_cmp a b = Some Lt /\ json_cmp b c = Some Lt /\ json_cmp a c = Some Gt.
Proof.
  exists (exist _ (RArr [RPos (2 ^ 53 + 1); RPos 0]) eq_refl : json),
         (exist _ (RArr [RFlt 4845873199050653696; RPos 1]) eq_refl : json),
         (exist _ (RArr [RPos (2 ^ 53); RPos 2]) eq_refl : json).
  split; [|split]; vm_compute; reflexivity.
Qed.

Example C31_case : json_cmp j_false j_true = Some Lt /\ json_cmp j_3 j_bob = None /\
  json_cmp (exist _ (RNeg (-1)) eq_refl : json) (exist _ (RPos (2 ^ 64 - 1)) eq_refl : json) = Some Lt /\
  nums exact_num (jraw j_3) = true /\ nums exact_num (jraw j_3f) = true /\ json_cmp j_3 j_3f = Some Eq.
Proof. repeat split; vm_compute; reflexivity. Qed.

(** ** C32 *)

(** Null, booleans, strings, integers in the range of [i64], and arrays and
    objects of these: different values feed different bytes to the hasher.
    Missing: nested containers, floats and large integers, where it is false. *)
Theorem C32_hash_input_partial a b :
  flat (jraw a) = true -> flat (jraw b) = true -> json_stream a = json_stream b -> a = b.
Proof. intros Fa Fb E. apply bsub_eq. apply flat_stream_inj; auto; apply jraw_wf. Qed.

(** Equal values (in the sense of the hash index) always have equal hash input. *)
Theorem C32_same_value_same_input_partial a b : key_eq a b = true -> json_stream a = json_stream b.
Proof. intros K. now apply key_eq_iff in K. Qed.

(** [[1], 2] and [[1, 2]]: no end markers are hashed. *)
Theorem C32_nested_refuted :
  exists a b, json_eq a b = false /\ no_floats (jraw a) = true /\ no_floats (jraw b) = true /\
              json_stream a = json_stream b.
Proof.
  exists (exist _ (RArr [RArr [RPos 1]; RPos 2]) eq_refl : json), (exist _ (RArr [RArr [RPos 1; RPos 2]]) eq_refl : json).
  repeat split; vm_compute; reflexivity.
Qed.

(** 4613937818241073152 and 3.0: no mark for the kind of number is hashed. *)
Theorem C32_kind_refuted :
  exists a b n x, jraw a = RPos n /\ jraw b = RFlt x /\ json_eq a b = false /\ json_stream a = json_stream b.
Proof.
  exists (exist _ (RPos 4613937818241073152) eq_refl : json), j_3f, 4613937818241073152%N, 4613937818241073152%N.
  repeat split; vm_compute; reflexivity.
Qed.

(** 2^64 - 1 and -1: same bits. *)
Theorem C32_sign_refuted :
  exists a b, jraw a = RPos (2 ^ 64 - 1) /\ jraw b = RNeg (-1) /\ json_eq a b = false /\ json_stream a = json_stream b.
Proof.
  exists (exist _ (RPos (2 ^ 64 - 1)) eq_refl : json), (exist _ (RNeg (-1)) eq_refl : json).
  repeat split; vm_compute; reflexivity.
Qed.

Example C32_case : flat (jraw j_bob) = true /\ flat (jraw j_3) = true /\
  flat (RObj [([x61], RPos 1); ([x62], RStr [x63])]) = true.
Proof. repeat split. Qed.
