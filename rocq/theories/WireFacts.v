(** * Lemmas about the wire format: decoding inverts encoding up to the
    recursion limit. *)
From Verif Require Import Base OMap Json Types Proto MemFacts Wire.

Set Implicit Arguments.
Local Open Scope list_scope.
Local Notation bytes := (list byte).

Definition small (b : bytes) : Prop := (lenN b < 2 ^ 64)%N.

Lemma lenN_app {A} (a b : list A) : lenN (a ++ b) = (lenN a + lenN b)%N.
Proof. unfold lenN. rewrite app_length. lia. Qed.

(** ** Varints *)
Lemma varint_nonempty k n : (0 < k)%nat -> exists x r, varint_aux k n = x :: r.
Proof. destruct k; [lia|]. intros _. cbn. destruct (n <? 128)%N; eauto. Qed.
Lemma unvarint_varint_aux k : forall n r, (n < 2 ^ (7 * N.of_nat k + 1))%N ->
  unvarint_aux (S k) (varint_aux (S k) n ++ r) = Some (n, r).
Proof.
  induction k as [|k IH]; intros n r L.
  - cbn [varint_aux]. change (2 ^ _)%N with 2%N in L. assert (n <? 128 = true)%N as -> by (apply N.ltb_lt; lia).
    cbn [app unvarint_aux]. rewrite bN_byte_of, N.mod_small by lia. assert (n <? 128 = true)%N as -> by (apply N.ltb_lt; lia).
    assert (2 <=? n = false)%N as -> by (apply N.leb_gt; lia). reflexivity.
  - change (varint_aux (S (S k)) n) with (if (n <? 128)%N then [byte_of n] else byte_of (n mod 128 + 128) :: varint_aux (S k) (n / 128)).
    destruct (N.ltb_spec n 128) as [Hn|Hn].
    + cbn [app unvarint_aux]. rewrite bN_byte_of, N.mod_small by lia. assert (n <? 128 = true)%N as -> by (now apply N.ltb_lt).
      reflexivity.
    + assert (n mod 128 < 128)%N as Lm by (apply N.mod_lt; lia).
      assert (n / 128 < 2 ^ (7 * N.of_nat k + 1))%N as Ld.
      { apply N.div_lt_upper_bound; [lia|]. change 128%N with (2 ^ 7)%N. rewrite <- N.pow_add_r. replace (7 + (7 * N.of_nat k + 1))%N with (7 * N.of_nat (S k) + 1)%N by lia. exact L. }
      specialize (IH (n / 128)%N r Ld).
      remember (varint_aux (S k) (n / 128)) as v. rewrite <- app_comm_cons.
      change (unvarint_aux (S (S k)) (byte_of (n mod 128 + 128) :: v ++ r)) with
        (if (bN (byte_of (n mod 128 + 128)) <? 128)%N then
           if (S k =? 0)%nat && (2 <=? bN (byte_of (n mod 128 + 128)))%N then None else Some (bN (byte_of (n mod 128 + 128)), v ++ r)
         else match unvarint_aux (S k) (v ++ r) with
              | Some (m, r') => Some (bN (byte_of (n mod 128 + 128)) - 128 + 128 * m, r')%N
              | None => None
              end).
      rewrite IH, bN_byte_of, (N.mod_small _ 256) by lia.
      assert (n mod 128 + 128 <? 128 = false)%N as -> by (apply N.ltb_ge; lia).
      f_equal. f_equal. rewrite N.add_sub. rewrite N.add_comm. symmetry. apply N.div_mod. lia.
Qed.
Lemma unvarint_varint n r : (n < 2 ^ 64)%N -> unvarint (varint n ++ r) = Some (n, r).
Proof. intros L. apply (@unvarint_varint_aux 9). exact L. Qed.

Lemma get_key_put t w r : (1 <= t)%N -> (w < 8)%N -> (8 * t + w < 2 ^ 32)%N -> get_key (varint (8 * t + w) ++ r) = Some (t, w, r).
Proof.
  intros T W L. unfold get_key. rewrite unvarint_varint by lia. assert (2 ^ 32 <=? 8 * t + w = false)%N as -> by (apply N.leb_gt; lia).
  replace (8 * t + w)%N with (w + t * 8)%N by lia. rewrite N.div_add, N.mod_add, N.div_small, N.mod_small by lia.
  assert (0 + t =? 0 = false)%N as -> by (apply N.eqb_neq; lia). reflexivity.
Qed.
Lemma take_app (b r : bytes) : take (lenN b) (b ++ r) = Some (b, r).
Proof.
  unfold take. rewrite lenN_app. assert (lenN b + lenN r <? lenN b = false)%N as -> by (apply N.ltb_ge; lia).
  unfold lenN. rewrite Nnat.Nat2N.id, firstn_app, firstn_all, Nat.sub_diag, skipn_app, skipn_all, Nat.sub_diag. cbn. now rewrite app_nil_r.
Qed.

(** ** Fields *)
Definition field_ok (f : N * wval) : Prop :=
  (1 <= fst f < 2 ^ 28)%N /\ match snd f with WVar n => (n < 2 ^ 64)%N | WLen b => small b | WOther => False end.
Definition field_shape (f : N * wval) : Prop :=
  (1 <= fst f < 2 ^ 28)%N /\ match snd f with WVar n => (n < 2 ^ 64)%N | WLen _ => True | WOther => False end.

Lemma varint_length n : (1 <= lenN (varint n))%N.
Proof. unfold varint. destruct (@varint_nonempty 10 n ltac:(lia)) as (x & r & ->). unfold lenN. cbn. lia. Qed.
Lemma put_field_length f : field_shape f -> (2 <= lenN (put_field f))%N.
Proof.
  intros [_ S]. destruct f as [t [n|b|]]; cbn [snd] in S; unfold put_field; cbn [fst snd]; rewrite ?lenN_app.
  - pose proof (varint_length (8 * t)). pose proof (varint_length n). lia.
  - pose proof (varint_length (8 * t + 2)). pose proof (varint_length (lenN b)). lia.
  - destruct S.
Qed.
Lemma wire_count l : Forall field_shape l -> (length l <= length (wire l))%nat.
Proof.
  induction 1 as [|f l F _ IH]; [apply le_n|]. cbn [wire flat_map length]. rewrite app_length. apply put_field_length in F. unfold lenN in F.
  fold (wire l). lia.
Qed.
Lemma wire_app a b : wire (a ++ b) = wire a ++ wire b.
Proof. apply flat_map_app. Qed.
Lemma wire_in t b l : In (t, WLen b) l -> (lenN b <= lenN (wire l))%N.
Proof.
  induction l as [|f l IH]; [intros []|]. intros [->|I]; cbn [wire flat_map]; rewrite lenN_app; fold (wire l).
  - unfold put_field. cbn [fst snd]. rewrite !lenN_app. lia.
  - specialize (IH I). lia.
Qed.
Lemma wire_small t b l : small (wire l) -> In (t, WLen b) l -> small b.
Proof. intros S I. apply wire_in in I. unfold small in *. lia. Qed.

Lemma fields_wire d l : Forall field_ok l -> forall f, (length l <= f)%nat -> fields f d (wire l) = Some l.
Proof.
  induction 1 as [|[t v] l [T V] _ IH]; intros f L; [destruct f; reflexivity|].
  cbn [length] in L. destruct f as [|f]; [lia|]. cbn [fst snd] in *. cbn [wire flat_map]. fold (wire l).
  assert (forall x (z : bytes), (match z with [] => None | _ => x end : option (list (N * wval))) = x \/ z = []) as NE by (intros x [|c z]; auto).
  assert (forall b, put_field (t, v) ++ wire l = b -> fields (S f) d b =
    match get_key b with
    | None => None
    | Some (t, w, r) =>
      match
        (if (w =? 0)%N then match unvarint r with Some (n, r') => Some (WVar n, r') | None => None end
         else if (w =? 2)%N then
           match unvarint r with
           | Some (n, r1) => match take n r1 with Some (x, r') => Some (WLen x, r') | None => None end
           | None => None
           end
         else match skip_field f d t w r with Some r' => Some (WOther, r') | None => None end)
      with
      | None => None
      | Some (v, r') => match fields f d r' with Some l => Some ((t, v) :: l) | None => None end
      end
    end) as U.
  { intros b <-. assert (field_shape (t, v)) as Sh by (split; [assumption|]; cbn; destruct v; auto). apply put_field_length in Sh.
    destruct (put_field (t, v) ++ wire l) as [|c z] eqn:E; [|reflexivity].
    apply app_eq_nil in E as [E _]. rewrite E in Sh. unfold lenN in Sh. cbn in Sh. lia. }
  rewrite (U _ eq_refl). clear U NE. unfold put_field. cbn [fst snd]. destruct v as [n|b|]; [| |destruct V].
  - rewrite <- app_assoc. replace (8 * t)%N with (8 * t + 0)%N by lia. rewrite get_key_put by lia. cbn [N.eqb].
    rewrite unvarint_varint by assumption. rewrite IH by lia. reflexivity.
  - rewrite <- !app_assoc. rewrite get_key_put by lia. cbn [N.eqb Pos.eqb].
    rewrite unvarint_varint by exact V. rewrite take_app, IH by lia. reflexivity.
Qed.

Lemma fields_ok l : Forall field_shape l -> small (wire l) -> Forall field_ok l.
Proof.
  intros F S. rewrite Forall_forall in *. intros [t v] I. destruct (F _ I) as [T V]. split; [assumption|]. cbn [snd] in *.
  destruct v; auto. eapply wire_small; eauto.
Qed.
Lemma merge_wire {M} (step : M -> N * wval -> option M) d m l : Forall field_shape l -> small (wire l) ->
  merge step d m (wire l) = fold_fields step m l.
Proof.
  intros F S. unfold merge. rewrite fields_wire; [reflexivity|now apply fields_ok|]. apply wire_count in F. lia.
Qed.

Lemma fold_fields_app {M} (step : M -> N * wval -> option M) a : forall m b,
  fold_fields step m (a ++ b) = match fold_fields step m a with Some m' => fold_fields step m' b | None => None end.
Proof. induction a as [|x a IH]; intros m b; cbn; [reflexivity|]. destruct (step m x); [apply IH|reflexivity]. Qed.
Lemma fold_fields_fail {M} (step : M -> N * wval -> option M) l x : In x l -> (forall m, step m x = None) -> forall m, fold_fields step m l = None.
Proof.
  induction l as [|y l IH]; intros I F m; [destruct I|]. cbn. destruct I as [->|I]; [now rewrite F|].
  destruct (step m y); [now apply IH|reflexivity].
Qed.

(** ** Shapes of what is written *)
Lemma shape_num t n : (1 <= t < 2 ^ 28)%N -> (n < 2 ^ 64)%N -> Forall field_shape (put_num t n).
Proof. intros. unfold put_num. destruct (n =? 0)%N; repeat constructor; cbn; tauto. Qed.
Lemma shape_bool t b : (1 <= t < 2 ^ 28)%N -> Forall field_shape (put_bool t b).
Proof. intros. unfold put_bool. destruct b; repeat constructor; cbn; tauto. Qed.
Lemma shape_i32 t z : (1 <= t < 2 ^ 28)%N -> Forall field_shape (put_i32 t z).
Proof.
  intros. unfold put_i32. destruct (z =? 0)%Z; repeat constructor; try (cbn; tauto). cbn -[Z.pow N.pow].
  pose proof (Z.mod_pos_bound z (2 ^ 64) ltac:(lia)) as B. change (2 ^ 64)%N with (Z.to_N (2 ^ 64)). apply Z2N.inj_lt; lia.
Qed.
Lemma shape_bytes t b : (1 <= t < 2 ^ 28)%N -> Forall field_shape (put_bytes t b).
Proof. intros. unfold put_bytes. destruct b; repeat constructor; cbn; tauto. Qed.
Lemma shape_opt {M} t (enc : M -> bytes) o : (1 <= t < 2 ^ 28)%N -> Forall field_shape (put_opt t enc o).
Proof. intros. unfold put_opt. destruct o; repeat constructor; cbn; tauto. Qed.
Lemma shape_list {M} t (enc : M -> bytes) l : (1 <= t < 2 ^ 28)%N -> Forall field_shape (put_list t enc l).
Proof. intros. unfold put_list. induction l; constructor; [|assumption]. split; cbn; tauto. Qed.
Ltac shapes :=
  repeat (apply Forall_app; split);
  first [apply shape_opt | apply shape_list | apply shape_bytes | apply shape_bool | apply shape_i32 | apply shape_num
        | (repeat constructor; cbn; lia)]; cbn; try lia; auto.

(** ** Levels of embedding *)
Definition lv_opt {M} (lv : M -> nat) (o : option M) : nat := match o with Some m => S (lv m) | None => 0 end.
Definition lv_list {M} (lv : M -> nat) (l : list M) : nat := list_max (map (fun m => S (lv m)) l).

(** Reading back what was written, from nothing, with recursion count [d]. *)
Definition reads {M} (dec : nat -> M -> bytes -> option M) (dflt : M) (enc : M -> bytes) (lv : M -> nat) (ok : M -> Prop) : Prop :=
  forall m d, ok m -> small (enc m) -> (lv m <= d)%nat -> dec d dflt (enc m) = Some m.
(** Too deep to be read, whatever it is merged into. *)
Definition too_deep {M} (dec : nat -> M -> bytes -> option M) (enc : M -> bytes) (lv : M -> nat) (ok : M -> Prop) : Prop :=
  forall m d m0, ok m -> small (enc m) -> (d < lv m)%nat -> dec d m0 (enc m) = None.

Lemma down_reads {M} dec dflt enc lv ok (R : @reads M dec dflt enc lv ok) m d : ok m -> small (enc m) -> (S (lv m) <= d)%nat ->
  down dec d dflt (enc m) = Some m.
Proof. intros. destruct d; [lia|]. cbn. apply R; auto; lia. Qed.
Lemma down_deep {M} dec enc lv ok (R : @too_deep M dec enc lv ok) m d m0 : ok m -> small (enc m) -> (d < S (lv m))%nat ->
  down dec d m0 (enc m) = None.
Proof. intros. destruct d; [reflexivity|]. cbn. apply R; auto; lia. Qed.

Lemma uuid_reads : reads dec_uuid (PUuid []) enc_uuid (fun _ => 0) (fun _ => True).
Proof.
  intros [v] d _ S _. unfold dec_uuid, enc_uuid in *. rewrite merge_wire by (auto; shapes). cbn [pu_value]. destruct v; reflexivity.
Qed.
Definition ident_utf8 (i : pident) : Prop := utf8_valid (pi_value i) = true.
Definition json_utf8 (v : pjson) : Prop := utf8_valid (pj_value v) = true.
Lemma ident_reads : reads dec_ident (PIdent []) enc_ident (fun _ => 0) ident_utf8.
Proof.
  intros [v] d U S _. unfold dec_ident, enc_ident, ident_utf8 in *. rewrite merge_wire by (auto; shapes). cbn [pi_value] in *.
  destruct v; [reflexivity|]. cbn [put_bytes fold_fields fst snd N.eqb Pos.eqb get_string]. rewrite U. reflexivity.
Qed.
Lemma json_reads : reads dec_json (PJson []) enc_json (fun _ => 0) json_utf8.
Proof.
  intros [v] d U S _. unfold dec_json, enc_json, json_utf8 in *. rewrite merge_wire by (auto; shapes). cbn [pj_value] in *.
  destruct v; [reflexivity|]. cbn [put_bytes fold_fields fst snd N.eqb Pos.eqb get_string]. rewrite U. reflexivity.
Qed.
Lemma uuid_deep : too_deep dec_uuid enc_uuid (fun _ => 0) (fun _ => True).
Proof. intros m d m0 _ _ L. lia. Qed.
Lemma ident_deep : too_deep dec_ident enc_ident (fun _ => 0) ident_utf8.
Proof. intros m d m0 _ _ L. lia. Qed.
Lemma json_deep : too_deep dec_json enc_json (fun _ => 0) json_utf8.
Proof. intros m d m0 _ _ L. lia. Qed.

Definition opt_ok {M} (ok : M -> Prop) (o : option M) : Prop := match o with Some m => ok m | None => True end.

(** The optional and repeated fields in the middle of a message. *)
Lemma fold_opt {M A} (step : M -> N * wval -> option M) t enc (o : option A) l m m' :
  (forall x, o = Some x -> step m (t, WLen (enc x)) = Some m') -> (o = None -> m = m') ->
  fold_fields step m (put_opt t enc o ++ l) = fold_fields step m' l.
Proof. intros H1 H2. destruct o as [x|]; cbn; [now rewrite H1|now rewrite H2]. Qed.
Lemma fold_list {M A} (step : M -> N * wval -> option M) t enc (l : list A) (put : list A -> M) k :
  (forall a x, In x l -> step (put a) (t, WLen (enc x)) = Some (put (a ++ [x]))) ->
  forall a, fold_fields step (put a) (put_list t enc l ++ k) = fold_fields step (put (a ++ l)) k.
Proof.
  intros H. induction l as [|x l IH]; intros a; cbn [put_list map app fold_fields]; [now rewrite app_nil_r|].
  rewrite H by now left. fold (put_list t enc l). rewrite IH by (intros; apply H; now right). now rewrite <- app_assoc.
Qed.
Lemma in_opt {A} t (enc : A -> bytes) (o : option A) x : o = Some x -> In (t, WLen (enc x)) (put_opt t enc o).
Proof. intros ->. now left. Qed.
Lemma in_list {A} t (enc : A -> bytes) (l : list A) x : In x l -> In (t, WLen (enc x)) (put_list t enc l).
Proof. intros I. unfold put_list. now apply (in_map (fun m => (t, WLen (enc m)))). Qed.
Lemma lv_in {A} (lv : A -> nat) l x : In x l -> (S (lv x) <= lv_list lv l)%nat.
Proof.
  intros I. unfold lv_list. pose proof (proj1 (list_max_le (map (fun m => S (lv m)) l) (list_max (map (fun m => S (lv m)) l))) (le_n _)) as F.
  rewrite Forall_forall in F. apply F. now apply (in_map (fun m => S (lv m))).
Qed.
Lemma lv_ex {A} (lv : A -> nat) l d : (d < lv_list lv l)%nat -> exists x, In x l /\ (d < S (lv x))%nat.
Proof.
  unfold lv_list. induction l as [|x l IH]; [cbn; lia|]. cbn [map].
  change (list_max (S (lv x) :: map (fun m => S (lv m)) l)) with (Nat.max (S (lv x)) (list_max (map (fun m => S (lv m)) l))). intros L. destruct (Nat.lt_ge_cases d (S (lv x))) as [H|H]; [exists x; split; [now left|assumption]|].
  destruct IH as (y & I & Ly); [lia|]. exists y. split; [now right|assumption].
Qed.

Local Arguments down : simpl never.
Local Arguments merge : simpl never.
Local Arguments wire : simpl never.
Local Arguments lv_opt : simpl never.
Local Arguments lv_list : simpl never.
Local Arguments dec_uuid : simpl never.
Local Arguments dec_ident : simpl never.
Local Arguments dec_json : simpl never.
Local Arguments enc_uuid : simpl never.
Local Arguments enc_ident : simpl never.
Local Arguments enc_json : simpl never.

Definition zero {M} (_ : M) : nat := 0.
Definition anything {M} (_ : M) : Prop := True.

(** Encoded parts of a small message are small. *)
Ltac part S := eapply wire_small; [exact S|]; rewrite ?in_app_iff; cbn; tauto.

Definition lv_edge (e : pedge) : nat :=
  Nat.max (lv_opt (@zero _) (pe_outbound e)) (Nat.max (lv_opt (@zero _) (pe_t e)) (lv_opt (@zero _) (pe_inbound e))).
Definition edge_ok (e : pedge) : Prop := opt_ok ident_utf8 (pe_t e).
Lemma edge_reads : reads dec_edge no_edge enc_edge lv_edge edge_ok.
Proof.
  intros [o t i] d T Sm L. unfold dec_edge, enc_edge, lv_edge, edge_ok in *. cbn in *.
  rewrite merge_wire by (assumption || shapes).
  destruct o as [o|], t as [t|], i as [i|]; unfold lv_opt in L; cbn in *;
    repeat (first [rewrite (down_reads uuid_reads) by (auto; part Sm) | rewrite (down_reads ident_reads) by (auto; part Sm)]; cbn); try reflexivity.
Qed.
Lemma down_0 {M} (dec : nat -> M -> bytes -> option M) m b : down dec 0 m b = None.
Proof. reflexivity. Qed.
Lemma edge_deep : too_deep dec_edge enc_edge lv_edge edge_ok.
Proof.
  intros [o t i] d m0 T Sm L. unfold dec_edge, enc_edge, lv_edge in *. cbn in *. rewrite merge_wire by (assumption || shapes).
  destruct d as [|d]; [|destruct o, t, i; unfold lv_opt, zero in L; cbn in L; lia].
  destruct o as [o|], t as [t|], i as [i|]; unfold lv_opt in L; cbn in *; rewrite ?down_0; try reflexivity. lia.
Qed.
Definition lv_vertex (v : pvertex) : nat := Nat.max (lv_opt (@zero _) (pv_id v)) (lv_opt (@zero _) (pv_t v)).
Definition vertex_ok (v : pvertex) : Prop := opt_ok ident_utf8 (pv_t v).
Lemma vertex_reads : reads dec_vertex no_vertex enc_vertex lv_vertex vertex_ok.
Proof.
  intros [o t] d T Sm L. unfold dec_vertex, enc_vertex, lv_vertex, vertex_ok in *. cbn in *.
  rewrite merge_wire by (assumption || shapes).
  destruct o as [o|], t as [t|]; unfold lv_opt in L; cbn in *;
    repeat (first [rewrite (down_reads uuid_reads) by (auto; part Sm) | rewrite (down_reads ident_reads) by (auto; part Sm)]; cbn); try reflexivity.
Qed.
Lemma vertex_deep : too_deep dec_vertex enc_vertex lv_vertex vertex_ok.
Proof.
  intros [o t] d m0 T Sm L. unfold dec_vertex, enc_vertex, lv_vertex in *. cbn in *. rewrite merge_wire by (assumption || shapes).
  destruct d as [|d]; [|destruct o, t; unfold lv_opt, zero in L; cbn in L; lia].
  destruct o as [o|], t as [t|]; unfold lv_opt in L; cbn in *; rewrite ?down_0; try reflexivity. lia.
Qed.

Lemma list_reads {M} dec dflt enc lv ok (R : @reads M dec dflt enc lv ok) :
  reads (dec_list dec dflt) [] (fun l => wire (put_list 1 enc l)) (lv_list lv) (Forall ok).
Proof.
  intros l d O Sm L. unfold dec_list. rewrite merge_wire by (assumption || shapes).
  rewrite <- (app_nil_r (put_list 1 enc l)). rewrite fold_list with (put := fun l => l); [reflexivity|].
  intros a x I. cbn. rewrite Forall_forall in O. rewrite (down_reads R); [reflexivity|now apply O| |].
  - eapply wire_small; [exact Sm|]. now apply (in_list 1 enc).
  - pose proof (lv_in lv l x I). lia.
Qed.
Lemma list_deep {M} dec dflt enc lv ok (R : @too_deep M dec enc lv ok) :
  too_deep (dec_list dec dflt) (fun l => wire (put_list 1 enc l)) (lv_list lv) (Forall ok).
Proof.
  intros l d m0 O Sm L. unfold dec_list. rewrite merge_wire by (assumption || shapes).
  apply lv_ex in L as (x & I & L). eapply fold_fields_fail; [apply in_list; exact I|]. intros m. cbn.
  rewrite Forall_forall in O. rewrite (down_deep R); [reflexivity|now apply O| |assumption].
  eapply wire_small; [exact Sm|]. now apply (in_list 1 enc).
Qed.

(** ** Numbers *)
Lemma get_put_i32 z : (- 2 ^ 31 <= z < 2 ^ 31)%Z -> get_i32 (WVar (Z.to_N (z mod 2 ^ 64))) = Some z.
Proof.
  intros B. unfold get_i32. pose proof (Z.mod_pos_bound z (2 ^ 64) ltac:(lia)) as M. rewrite Z2N.id by lia.
  assert ((z mod 2 ^ 64) mod 2 ^ 32 = z mod 2 ^ 32)%Z as ->.
  { change (2 ^ 64)%Z with (2 ^ 32 * 2 ^ 32)%Z. rewrite Z.rem_mul_r by lia. rewrite Z.mul_comm, Z.mod_add by lia. apply Z.mod_mod. lia. }
  f_equal. destruct (Z.ltb_spec (z mod 2 ^ 32) (2 ^ 31)) as [H|H].
  - destruct (Z.lt_ge_cases z 0) as [N|N]; [|apply Z.mod_small; lia].
    assert (z mod 2 ^ 32 = z + 2 ^ 32)%Z as E; [|lia]. symmetry. apply Z.mod_unique with (q := (-1)%Z); lia.
  - destruct (Z.lt_ge_cases z 0) as [N|N].
    + assert (z mod 2 ^ 32 = z + 2 ^ 32)%Z as E; [|lia]. symmetry. apply Z.mod_unique with (q := (-1)%Z); lia.
    + rewrite Z.mod_small in H by lia. lia.
Qed.
Lemma get_put_u32 n : (n < 2 ^ 32)%N -> get_u32 (WVar n) = Some n.
Proof. intros L. unfold get_u32. now rewrite N.mod_small. Qed.
Local Arguments get_i32 : simpl never.
Local Arguments get_u32 : simpl never.

(** ** Queries *)
Section QueryInd.
  Variable P : pquery -> Prop.
  Definition opt_P (o : option pquery) : Prop := match o with Some q => P q | None => True end.
  Hypothesis P_none : P PQNone.
  Hypothesis P_av : P PQAllVertex.
  Hypothesis P_rv : forall l t s, P (PQRangeVertex l t s).
  Hypothesis P_sv : forall l, P (PQSpecificVertex l).
  Hypothesis P_vp : forall n, P (PQVertexWithPropertyPresence n).
  Hypothesis P_vv : forall n v, P (PQVertexWithPropertyValue n v).
  Hypothesis P_ae : P PQAllEdge.
  Hypothesis P_se : forall l, P (PQSpecificEdge l).
  Hypothesis P_ep : forall n, P (PQEdgeWithPropertyPresence n).
  Hypothesis P_ev : forall n v, P (PQEdgeWithPropertyValue n v).
  Hypothesis P_pipe : forall i dir l t, opt_P i -> P (PQPipe i dir l t).
  Hypothesis P_pp : forall i n, opt_P i -> P (PQPipeProperty i n).
  Hypothesis P_pwp : forall i n e, opt_P i -> P (PQPipeWithPropertyPresence i n e).
  Hypothesis P_pwv : forall i n v e, opt_P i -> P (PQPipeWithPropertyValue i n v e).
  Hypothesis P_inc : forall i, opt_P i -> P (PQInclude i).
  Hypothesis P_cnt : forall i, opt_P i -> P (PQCount i).
  Fixpoint pquery_nested (q : pquery) : P q :=
    let inner (o : option pquery) : opt_P o := match o with Some i => pquery_nested i | None => I end in
    match q with
    | PQNone => P_none
    | PQAllVertex => P_av
    | PQRangeVertex l t s => P_rv l t s
    | PQSpecificVertex l => P_sv l
    | PQVertexWithPropertyPresence n => P_vp n
    | PQVertexWithPropertyValue n v => P_vv n v
    | PQAllEdge => P_ae
    | PQSpecificEdge l => P_se l
    | PQEdgeWithPropertyPresence n => P_ep n
    | PQEdgeWithPropertyValue n v => P_ev n v
    | PQPipe i dir l t => P_pipe i dir l t (inner i)
    | PQPipeProperty i n => P_pp i n (inner i)
    | PQPipeWithPropertyPresence i n e => P_pwp i n e (inner i)
    | PQPipeWithPropertyValue i n v e => P_pwv i n v e (inner i)
    | PQInclude i => P_inc i (inner i)
    | PQCount i => P_cnt i (inner i)
    end.
End QueryInd.

(** Levels of embedding below a [Query] message. *)
Fixpoint lv_query (q : pquery) : nat :=
  let inner (o : option pquery) := match o with Some i => S (lv_query i) | None => 0 end in
  match q with
  | PQNone => 0
  | PQAllVertex | PQAllEdge => 1
  | PQRangeVertex _ t s => S (Nat.max (lv_opt (@zero _) t) (lv_opt (@zero _) s))
  | PQSpecificVertex l => S (lv_list (@zero _) l)
  | PQSpecificEdge l => S (lv_list lv_edge l)
  | PQVertexWithPropertyPresence n | PQEdgeWithPropertyPresence n => S (lv_opt (@zero _) n)
  | PQVertexWithPropertyValue n v | PQEdgeWithPropertyValue n v => S (Nat.max (lv_opt (@zero _) n) (lv_opt (@zero _) v))
  | PQPipe i _ _ t => S (Nat.max (inner i) (lv_opt (@zero _) t))
  | PQPipeProperty i n => S (Nat.max (inner i) (lv_opt (@zero _) n))
  | PQPipeWithPropertyPresence i n _ => S (Nat.max (inner i) (lv_opt (@zero _) n))
  | PQPipeWithPropertyValue i n v _ => S (Nat.max (inner i) (Nat.max (lv_opt (@zero _) n) (lv_opt (@zero _) v)))
  | PQInclude i | PQCount i => S (inner i)
  end.
(** Strings are UTF-8 and numbers fit their types. *)
Fixpoint query_ok (q : pquery) : Prop :=
  let inner (o : option pquery) := match o with Some i => query_ok i | None => True end in
  match q with
  | PQRangeVertex l t _ => (l < 2 ^ 32)%N /\ opt_ok ident_utf8 t
  | PQSpecificEdge l => Forall edge_ok l
  | PQVertexWithPropertyPresence n | PQEdgeWithPropertyPresence n => opt_ok ident_utf8 n
  | PQVertexWithPropertyValue n v | PQEdgeWithPropertyValue n v => opt_ok ident_utf8 n /\ opt_ok json_utf8 v
  | PQPipe i dir l t => inner i /\ (- 2 ^ 31 <= dir < 2 ^ 31)%Z /\ (l < 2 ^ 32)%N /\ opt_ok ident_utf8 t
  | PQPipeProperty i n | PQPipeWithPropertyPresence i n _ => inner i /\ opt_ok ident_utf8 n
  | PQPipeWithPropertyValue i n v _ => inner i /\ opt_ok ident_utf8 n /\ opt_ok json_utf8 v
  | PQInclude i | PQCount i => inner i
  | _ => True
  end.

Local Arguments enc_query : simpl never.
Ltac fields_in Sm :=
  repeat (first [rewrite (down_reads uuid_reads) by (auto; part Sm) | rewrite (down_reads ident_reads) by (auto; part Sm)
                | rewrite (down_reads json_reads) by (auto; part Sm) | rewrite get_put_u32 by assumption | rewrite get_put_i32 by assumption]; cbn).

Lemma range_reads l t s d : (l < 2 ^ 32)%N -> opt_ok ident_utf8 t ->
  let b := wire (put_num 1 l ++ put_opt 2 enc_ident t ++ put_opt 3 enc_uuid s) in
  small b -> (Nat.max (lv_opt (@zero _) t) (lv_opt (@zero _) s) <= d)%nat -> dec_range d (0%N, None, None) b = Some (l, t, s).
Proof.
  intros Hl Ht b Sm L. subst b. unfold dec_range. rewrite merge_wire by (assumption || shapes).
  unfold put_num in *. destruct (N.eqb_spec l 0) as [->|_]; destruct t, s; unfold lv_opt in L; cbn in *; fields_in Sm; reflexivity.
Qed.
Lemma range_deep l t s d m0 : (l < 2 ^ 32)%N ->
  let b := wire (put_num 1 l ++ put_opt 2 enc_ident t ++ put_opt 3 enc_uuid s) in
  small b -> (d < Nat.max (lv_opt (@zero _) t) (lv_opt (@zero _) s))%nat -> dec_range d m0 b = None.
Proof.
  intros Hl b Sm L. subst b. unfold dec_range. rewrite merge_wire by (assumption || shapes).
  destruct d; [|destruct t, s; unfold lv_opt, zero in L; cbn in L; lia]. destruct m0 as [[l0 t0] s0].
  unfold put_num in *. destruct (N.eqb_spec l 0) as [->|_]; destruct t, s; unfold lv_opt in L; cbn in *; rewrite ?get_put_u32 by assumption; cbn;
    rewrite ?down_0; first [reflexivity | lia].
Qed.
Lemma name_reads n d : opt_ok ident_utf8 n -> let b := wire (put_opt 1 enc_ident n) in
  small b -> (lv_opt (@zero _) n <= d)%nat -> dec_name d None b = Some n.
Proof.
  intros Hn b Sm L. subst b. unfold dec_name. rewrite merge_wire by (assumption || shapes). destruct n; unfold lv_opt in L; cbn in *; fields_in Sm; reflexivity.
Qed.
Lemma name_deep n d m0 : let b := wire (put_opt 1 enc_ident n) in small b -> (d < lv_opt (@zero _) n)%nat -> dec_name d m0 b = None.
Proof.
  intros b Sm L. subst b. unfold dec_name. rewrite merge_wire by (assumption || shapes). destruct n; unfold lv_opt, zero in L; [|lia].
  destruct d; [|lia]. cbn. now rewrite down_0.
Qed.
Lemma name_value_reads n v d : opt_ok ident_utf8 n -> opt_ok json_utf8 v ->
  let b := wire (put_opt 1 enc_ident n ++ put_opt 2 enc_json v) in
  small b -> (Nat.max (lv_opt (@zero _) n) (lv_opt (@zero _) v) <= d)%nat -> dec_name_value d (None, None) b = Some (n, v).
Proof.
  intros Hn Hv b Sm L. subst b. unfold dec_name_value. rewrite merge_wire by (assumption || shapes). destruct n, v; unfold lv_opt in L; cbn in *; fields_in Sm; reflexivity.
Qed.
Lemma name_value_deep n v d m0 : let b := wire (put_opt 1 enc_ident n ++ put_opt 2 enc_json v) in
  small b -> (d < Nat.max (lv_opt (@zero _) n) (lv_opt (@zero _) v))%nat -> dec_name_value d m0 b = None.
Proof.
  intros b Sm L. subst b. unfold dec_name_value. rewrite merge_wire by (assumption || shapes).
  destruct d; [|destruct n, v; unfold lv_opt, zero in L; cbn in L; lia].
  destruct n, v; unfold lv_opt in L; cbn in *; rewrite ?down_0; first [reflexivity | lia].
Qed.

(** *** Stages with an inner query *)
Definition put_inner (o : option pquery) : list (N * wval) := put_opt 1 enc_query o.
Definition lv_inner (o : option pquery) : nat := lv_opt lv_query o.
Section Stage.
  Variable inner : pquery -> bytes -> option pquery.
  Variable i : option pquery.
  Variable d : nat.
  Definition inner_reads : Prop := forall q, i = Some q -> small (enc_query q) -> inner PQNone (enc_query q) = Some q.
  Definition inner_deep : Prop := exists q, i = Some q /\ (small (enc_query q) -> forall m, inner m (enc_query q) = None).

  Ltac go R Sm := try (rewrite (R _ eq_refl) by part Sm); cbn -[Z.pow Z.modulo]; fields_in Sm; try reflexivity.
  Lemma pipe_reads dir l t : (- 2 ^ 31 <= dir < 2 ^ 31)%Z -> (l < 2 ^ 32)%N -> opt_ok ident_utf8 t ->
    let b := wire (put_inner i ++ put_i32 2 dir ++ put_num 3 l ++ put_opt 4 enc_ident t) in
    inner_reads -> small b -> (lv_opt (@zero _) t <= d)%nat -> dec_pipe inner d (None, 0%Z, 0%N, None) b = Some (i, dir, l, t).
  Proof.
    intros Hd Hl Ht b R Sm L. subst b. unfold dec_pipe. rewrite merge_wire by (assumption || (unfold put_inner; shapes)).
    unfold put_inner, put_i32, put_num, inner_reads in *. destruct i as [q|]; destruct (Z.eqb_spec dir 0) as [->|_]; destruct (N.eqb_spec l 0) as [->|_]; destruct t; unfold lv_opt in L; cbn -[Z.pow Z.modulo] in *; go R Sm.
  Qed.
  Lemma pipe_property_reads n : opt_ok ident_utf8 n ->
    let b := wire (put_inner i ++ put_opt 2 enc_ident n) in
    inner_reads -> small b -> (lv_opt (@zero _) n <= d)%nat -> dec_pipe_property inner d (None, None) b = Some (i, n).
  Proof.
    intros Hn b R Sm L. subst b. unfold dec_pipe_property. rewrite merge_wire by (assumption || (unfold put_inner; shapes)).
    unfold put_inner, inner_reads in *. destruct i as [q|]; destruct n; unfold lv_opt in L; cbn -[Z.pow Z.modulo] in *; go R Sm.
  Qed.
  Lemma pipe_presence_reads n e : opt_ok ident_utf8 n ->
    let b := wire (put_inner i ++ put_opt 2 enc_ident n ++ put_bool 3 e) in
    inner_reads -> small b -> (lv_opt (@zero _) n <= d)%nat -> dec_pipe_presence inner d (None, None, false) b = Some (i, n, e).
  Proof.
    intros Hn b R Sm L. subst b. unfold dec_pipe_presence. rewrite merge_wire by (assumption || (unfold put_inner; shapes)).
    unfold put_inner, inner_reads in *. destruct i as [q|]; destruct n; destruct e; unfold lv_opt in L; cbn -[Z.pow Z.modulo] in *; go R Sm.
  Qed.
  Lemma pipe_value_reads n v e : opt_ok ident_utf8 n -> opt_ok json_utf8 v ->
    let b := wire (put_inner i ++ put_opt 2 enc_ident n ++ put_opt 3 enc_json v ++ put_bool 4 e) in
    inner_reads -> small b -> (Nat.max (lv_opt (@zero _) n) (lv_opt (@zero _) v) <= d)%nat ->
    dec_pipe_value inner d (None, None, None, false) b = Some (i, n, v, e).
  Proof.
    intros Hn Hv b R Sm L. subst b. unfold dec_pipe_value. rewrite merge_wire by (assumption || (unfold put_inner; shapes)).
    unfold put_inner, inner_reads in *. destruct i as [q|]; destruct n; destruct v; destruct e; unfold lv_opt in L; cbn -[Z.pow Z.modulo] in *; go R Sm.
  Qed.
  Lemma inner_only_reads : let b := wire (put_inner i) in inner_reads -> small b -> dec_inner inner d None b = Some i.
  Proof.
    intros b R Sm. subst b. unfold dec_inner. rewrite merge_wire by (assumption || (unfold put_inner; shapes)).
    unfold put_inner, inner_reads in *. destruct i as [q|]; cbn -[Z.pow Z.modulo] in *; go R Sm.
  Qed.

  (** Too deep: the inner query is, or there is a name or value and no level left. *)
  Ltac deep I := intros Sm [(q & -> & D)|(-> & L)];
    [ rewrite merge_wire by (assumption || (unfold put_inner; shapes));
      eapply fold_fields_fail; [rewrite in_app_iff; left; now left|]; I;
      unfold opt_query, get_msg; cbn; rewrite D by (part Sm); reflexivity
    | rewrite merge_wire by (assumption || (unfold put_inner; shapes)) ].
  Lemma pipe_deep dir l t m0 : (l < 2 ^ 32)%N ->
    let b := wire (put_inner i ++ put_i32 2 dir ++ put_num 3 l ++ put_opt 4 enc_ident t) in
    small b -> inner_deep \/ (d = 0 /\ t <> None) -> dec_pipe inner d m0 b = None.
  Proof.
    intros Hl b. subst b. unfold dec_pipe. deep ltac:(intros [[[? ?] ?] ?]).
    destruct t as [t|]; [|congruence]. eapply fold_fields_fail; [rewrite !in_app_iff; right; right; right; now left|]. intros [[[? ?] ?] ?]. reflexivity.
  Qed.
  Lemma pipe_property_deep n m0 :
    let b := wire (put_inner i ++ put_opt 2 enc_ident n) in
    small b -> inner_deep \/ (d = 0 /\ n <> None) -> dec_pipe_property inner d m0 b = None.
  Proof.
    intros b. subst b. unfold dec_pipe_property. deep ltac:(intros [? ?]).
    destruct n as [n|]; [|congruence]. eapply fold_fields_fail; [rewrite !in_app_iff; right; now left|]. intros [? ?]. reflexivity.
  Qed.
  Lemma pipe_presence_deep n e m0 :
    let b := wire (put_inner i ++ put_opt 2 enc_ident n ++ put_bool 3 e) in
    small b -> inner_deep \/ (d = 0 /\ n <> None) -> dec_pipe_presence inner d m0 b = None.
  Proof.
    intros b. subst b. unfold dec_pipe_presence. deep ltac:(intros [[? ?] ?]).
    destruct n as [n|]; [|congruence]. eapply fold_fields_fail; [rewrite !in_app_iff; right; left; now left|]. intros [[? ?] ?]. reflexivity.
  Qed.
  Lemma pipe_value_deep n v e m0 :
    let b := wire (put_inner i ++ put_opt 2 enc_ident n ++ put_opt 3 enc_json v ++ put_bool 4 e) in
    small b -> inner_deep \/ (d = 0 /\ (n <> None \/ v <> None)) -> dec_pipe_value inner d m0 b = None.
  Proof.
    intros b. subst b. unfold dec_pipe_value. deep ltac:(intros [[[? ?] ?] ?]).
    destruct L as [L|L].
    - destruct n as [n|]; [|congruence]. eapply fold_fields_fail; [rewrite !in_app_iff; right; left; now left|]. intros [[[? ?] ?] ?]. reflexivity.
    - destruct v as [v|]; [|congruence]. eapply fold_fields_fail; [rewrite !in_app_iff; right; right; left; now left|]. intros [[[? ?] ?] ?]. reflexivity.
  Qed.
  Lemma inner_only_deep m0 : let b := wire (put_inner i) in small b -> inner_deep -> dec_inner inner d m0 b = None.
  Proof.
    intros b Sm (q & -> & D). subst b. unfold dec_inner. rewrite merge_wire by (assumption || (unfold put_inner; shapes)).
    eapply fold_fields_fail; [now left|]. intros m. unfold opt_query, get_msg. cbn. rewrite D by (part Sm). reflexivity.
  Qed.
End Stage.

Lemma empty_reads d : dec_empty d tt put_empty = Some tt.
Proof. reflexivity. Qed.
Local Arguments dec_range : simpl never.
Local Arguments dec_list : simpl never.
Local Arguments dec_name : simpl never.
Local Arguments dec_name_value : simpl never.
Local Arguments dec_pipe : simpl never.
Local Arguments dec_pipe_property : simpl never.
Local Arguments dec_pipe_presence : simpl never.
Local Arguments dec_pipe_value : simpl never.
Local Arguments dec_inner : simpl never.
Local Arguments put_num : simpl never.
Local Arguments put_i32 : simpl never.
Local Arguments put_opt : simpl never.
Local Arguments put_list : simpl never.
Local Arguments put_bool : simpl never.
Local Arguments get_msg : simpl nomatch.

(** The recursion of [dec_query], two levels at a time. *)
Definition inner_dec (d : nat) : pquery -> bytes -> option pquery :=
  match d with S (S d) => dec_query d | _ => fun _ _ => None end.
Lemma inner_reads_of i d (R : opt_P (fun q => forall d, query_ok q -> small (enc_query q) -> (lv_query q <= d)%nat -> dec_query d PQNone (enc_query q) = Some q) i) :
  match i with Some q => query_ok q | None => True end -> (match i with Some q => S (lv_query q) | None => 0 end <= d)%nat ->
  inner_reads (inner_dec (S d)) i.
Proof. intros O L q -> Sm. cbn in *. destruct d; [lia|]. cbn [inner_dec]. apply R; auto. lia. Qed.
Lemma inner_deep_of i d (R : opt_P (fun q => forall d m0, query_ok q -> small (enc_query q) -> (d < lv_query q)%nat -> dec_query d m0 (enc_query q) = None) i) :
  match i with Some q => query_ok q | None => True end -> (d < match i with Some q => S (lv_query q) | None => 0 end)%nat ->
  inner_deep (inner_dec (S d)) i.
Proof. intros O L. destruct i as [q|]; [|lia]. exists q. split; [reflexivity|]. intros Sm m. cbn in *. destruct d; [reflexivity|]. cbn [inner_dec]. apply R; auto. lia. Qed.

(** One field of a query. *)
Definition query_step (d : nat) (q : pquery) (t : N) (v : wval) : option pquery :=
  let inner := inner_dec (S d) in
      if (t =? 1)%N then
        option_map (fun _ => PQAllVertex) (get_msg (dec_empty d) tt v)
      else if (t =? 2)%N then
        option_map (fun x => let '(l, t, s) := x in PQRangeVertex l t s)
          (get_msg (dec_range d) (match q with PQRangeVertex l t s => (l, t, s) | _ => (0%N, None, None) end) v)
      else if (t =? 3)%N then
        option_map PQSpecificVertex
          (get_msg (dec_list dec_uuid (PUuid []) d) (match q with PQSpecificVertex l => l | _ => [] end) v)
      else if (t =? 4)%N then
        option_map PQVertexWithPropertyPresence
          (get_msg (dec_name d) (match q with PQVertexWithPropertyPresence n => n | _ => None end) v)
      else if (t =? 5)%N then
        option_map (fun x => PQVertexWithPropertyValue (fst x) (snd x))
          (get_msg (dec_name_value d) (match q with PQVertexWithPropertyValue n x => (n, x) | _ => (None, None) end) v)
      else if (t =? 6)%N then
        option_map (fun _ => PQAllEdge) (get_msg (dec_empty d) tt v)
      else if (t =? 7)%N then
        option_map PQSpecificEdge
          (get_msg (dec_list dec_edge no_edge d) (match q with PQSpecificEdge l => l | _ => [] end) v)
      else if (t =? 8)%N then
        option_map PQEdgeWithPropertyPresence
          (get_msg (dec_name d) (match q with PQEdgeWithPropertyPresence n => n | _ => None end) v)
      else if (t =? 9)%N then
        option_map (fun x => PQEdgeWithPropertyValue (fst x) (snd x))
          (get_msg (dec_name_value d) (match q with PQEdgeWithPropertyValue n x => (n, x) | _ => (None, None) end) v)
      else if (t =? 10)%N then
        option_map (fun x => let '(i, dir, l, t) := x in PQPipe i dir l t)
          (get_msg (dec_pipe inner d) (match q with PQPipe i dir l t => (i, dir, l, t) | _ => (None, 0%Z, 0%N, None) end) v)
      else if (t =? 11)%N then
        option_map (fun x => PQPipeProperty (fst x) (snd x))
          (get_msg (dec_pipe_property inner d) (match q with PQPipeProperty i n => (i, n) | _ => (None, None) end) v)
      else if (t =? 12)%N then
        option_map (fun x => let '(i, n, e) := x in PQPipeWithPropertyPresence i n e)
          (get_msg (dec_pipe_presence inner d) (match q with PQPipeWithPropertyPresence i n e => (i, n, e) | _ => (None, None, false) end) v)
      else if (t =? 13)%N then
        option_map (fun x => let '(i, n, v, e) := x in PQPipeWithPropertyValue i n v e)
          (get_msg (dec_pipe_value inner d) (match q with PQPipeWithPropertyValue i n v e => (i, n, v, e) | _ => (None, None, None, false) end) v)
      else if (t =? 14)%N then
        option_map PQInclude (get_msg (dec_inner inner d) (match q with PQInclude i => i | _ => None end) v)
      else if (t =? 15)%N then
        option_map PQCount (get_msg (dec_inner inner d) (match q with PQCount i => i | _ => None end) v)
      else Some q.
Lemma dec_query_merge d q b : dec_query (S d) q b = merge (fun q f => query_step d q (fst f) (snd f)) (S d) q b.
Proof.
  cbn [dec_query]. unfold merge. destruct (fields _ _ _) as [l|]; [|reflexivity].
  revert q. induction l as [|[t' v'] l IH]; intros q; [reflexivity|]. cbn [fold_fields fst snd].
  unfold query_step at 1. cbn [inner_dec].
  match goal with |- match ?a with _ => _ end = match ?b with _ => _ end => change b with a; destruct a end; [apply IH|reflexivity].
Qed.
Lemma dec_query_one d q t b : (1 <= t < 16)%N -> small (wire [(t, WLen b)]) ->
  dec_query (S d) q (wire [(t, WLen b)]) = query_step d q t (WLen b).
Proof.
  intros T Sm. rewrite dec_query_merge.
  rewrite merge_wire; [|repeat constructor; cbn; lia|assumption]. cbn [fold_fields fst snd]. destruct (query_step _ _ _ _); reflexivity.
Qed.

Lemma merge_0 q t b : (1 <= t < 16)%N -> small (wire [(t, WLen b)]) -> dec_query 0 q (wire [(t, WLen b)]) = None.
Proof.
  intros T Sm. cbn [dec_query]. rewrite merge_wire; [reflexivity| |assumption]. repeat constructor; cbn; lia.
Qed.
Lemma small_body t b : small (wire [(t, WLen b)]) -> small b.
Proof. intros Sm. eapply wire_small; [exact Sm|now left]. Qed.
Lemma put_inner_eq o : match o with Some i => [(1%N, WLen (enc_query i))] | None => [] end = put_inner o.
Proof. now destruct o. Qed.
Ltac one d :=
  rewrite dec_query_one by (assumption || lia);
  match goal with H : small (wire [(_, WLen _)]) |- _ => apply small_body in H end;
  unfold query_step; cbn [N.eqb Pos.eqb get_msg]; rewrite ?put_inner_eq in *.
Lemma query_reads : reads dec_query PQNone enc_query lv_query query_ok.
Proof.
  intros q. induction q using pquery_nested; intros d O Sm L.
  1: { destruct d; reflexivity. }
  all: cbn [lv_query] in L; destruct d as [|d]; [lia|]; apply le_S_n in L; unfold enc_query in *; fold enc_query in *; one d; cbn [query_ok] in O.
  - reflexivity.
  - destruct O. now rewrite range_reads.
  - now rewrite (list_reads uuid_reads) by (auto; now apply Forall_forall).
  - now rewrite name_reads.
  - destruct O. now rewrite name_value_reads.
  - reflexivity.
  - now rewrite (list_reads edge_reads).
  - now rewrite name_reads.
  - destruct O. now rewrite name_value_reads.
  - destruct O as (Oi & Od & Ol & Ot). rewrite pipe_reads; auto; [|lia]. apply inner_reads_of; auto. lia.
  - destruct O as (Oi & On). rewrite pipe_property_reads; auto; [|lia]. apply inner_reads_of; auto. lia.
  - destruct O as (Oi & On). rewrite pipe_presence_reads; auto; [|lia]. apply inner_reads_of; auto. lia.
  - destruct O as (Oi & On & Ov). rewrite pipe_value_reads; auto; [|lia]. apply inner_reads_of; auto. lia.
  - rewrite inner_only_reads; auto. apply inner_reads_of; auto.
  - rewrite inner_only_reads; auto. apply inner_reads_of; auto.
Qed.

Lemma opt_lt {M} d (o : option M) : (d < lv_opt (@zero _) o)%nat -> d = 0 /\ o <> None.
Proof. destruct o; unfold lv_opt, zero; [|lia]. intros. split; [lia|congruence]. Qed.
Ltac split_max L :=
  match type of L with (_ < Nat.max _ _)%nat => apply Nat.max_lt_iff in L as [L|L]; [|split_max L] | _ => idtac end.
Lemma query_deep : too_deep dec_query enc_query lv_query query_ok.
Proof.
  intros q. induction q using pquery_nested; intros d m0 O Sm L.
  1: { cbn in L. lia. }
  all: cbn [lv_query] in L; unfold enc_query in *; fold enc_query in *.
  all: destruct d as [|d]; [now rewrite merge_0 by (assumption || lia)|]; apply Nat.succ_lt_mono in L;  one d; cbn [query_ok] in O.
  - lia.
  - destruct O. now rewrite range_deep.
  - now rewrite (list_deep _ uuid_deep) by (auto; now apply Forall_forall).
  - now rewrite name_deep.
  - destruct O. now rewrite name_value_deep.
  - lia.
  - now rewrite (list_deep _ edge_deep).
  - now rewrite name_deep.
  - destruct O. now rewrite name_value_deep.
  - destruct O as (Oi & Od & Ol & Ot). rewrite pipe_deep; auto. split_max L; [left|right; now apply opt_lt]. now apply inner_deep_of.
  - destruct O as (Oi & On). rewrite pipe_property_deep; auto. split_max L; [left|right; now apply opt_lt]. now apply inner_deep_of.
  - destruct O as (Oi & On). rewrite pipe_presence_deep; auto. split_max L; [left|right; now apply opt_lt]. now apply inner_deep_of.
  - destruct O as (Oi & On & Ov). rewrite pipe_value_deep; auto. split_max L; [left; now apply inner_deep_of|right|right]; apply opt_lt in L as [-> L]; auto.
  - rewrite inner_only_deep; auto. now apply inner_deep_of.
  - rewrite inner_only_deep; auto. now apply inner_deep_of.
Qed.

(** ** Results *)
Definition lv_nprop (p : pnprop) : nat := Nat.max (lv_opt (@zero _) (pn_name p)) (lv_opt (@zero _) (pn_value p)).
Definition nprop_ok (p : pnprop) : Prop := opt_ok ident_utf8 (pn_name p) /\ opt_ok json_utf8 (pn_value p).
Lemma nprop_reads : reads dec_nprop no_nprop enc_nprop lv_nprop nprop_ok.
Proof.
  intros [n v] d [On Ov] Sm L. unfold dec_nprop, enc_nprop, lv_nprop in *. cbn [pn_name pn_value] in *.
  rewrite merge_wire by (assumption || shapes).
  destruct n as [n|], v as [v|]; unfold lv_opt, put_opt in *; cbn in *; fields_in Sm; reflexivity.
Qed.
Local Arguments dec_nprop : simpl never.
Local Arguments enc_nprop : simpl never.
Local Arguments dec_vertex : simpl never.
Local Arguments enc_vertex : simpl never.
Local Arguments dec_edge : simpl never.
Local Arguments enc_edge : simpl never.
Definition lv_vprops (p : pvprops) : nat := Nat.max (lv_opt lv_vertex (pvs_vertex p)) (lv_list lv_nprop (pvs_props p)).
Definition vprops_ok (p : pvprops) : Prop := opt_ok vertex_ok (pvs_vertex p) /\ Forall nprop_ok (pvs_props p).
Lemma vprops_reads : reads dec_vprops (PVProps None []) enc_vprops lv_vprops vprops_ok.
Proof.
  intros [o l] d [Oo Ol] Sm L. unfold dec_vprops, enc_vprops, lv_vprops in *. cbn [pvs_vertex pvs_props] in *.
  rewrite merge_wire by (assumption || shapes).
  rewrite fold_opt with (m' := PVProps o []).
  - rewrite <- (app_nil_r (put_list 2 enc_nprop l)). rewrite fold_list with (put := fun l => PVProps o l); [reflexivity|].
    intros a x I. cbn. rewrite Forall_forall in Ol. rewrite (down_reads nprop_reads); [reflexivity|now apply Ol| |].
    + eapply wire_small; [exact Sm|]. apply in_app_iff. right. now apply (in_list 2 enc_nprop).
    + pose proof (lv_in lv_nprop l x I). lia.
  - intros x ->. cbn. rewrite (down_reads vertex_reads); [reflexivity|exact Oo| |unfold lv_opt in L; lia].
    eapply wire_small; [exact Sm|]. apply in_app_iff. left. now left.
  - now intros ->.
Qed.
Definition lv_eprops (p : peprops) : nat := Nat.max (lv_opt lv_edge (pes_edge p)) (lv_list lv_nprop (pes_props p)).
Definition eprops_ok (p : peprops) : Prop := opt_ok edge_ok (pes_edge p) /\ Forall nprop_ok (pes_props p).
Lemma eprops_reads : reads dec_eprops (PEProps None []) enc_eprops lv_eprops eprops_ok.
Proof.
  intros [o l] d [Oo Ol] Sm L. unfold dec_eprops, enc_eprops, lv_eprops in *. cbn [pes_edge pes_props] in *.
  rewrite merge_wire by (assumption || shapes).
  rewrite fold_opt with (m' := PEProps o []).
  - rewrite <- (app_nil_r (put_list 2 enc_nprop l)). rewrite fold_list with (put := fun l => PEProps o l); [reflexivity|].
    intros a x I. cbn. rewrite Forall_forall in Ol. rewrite (down_reads nprop_reads); [reflexivity|now apply Ol| |].
    + eapply wire_small; [exact Sm|]. apply in_app_iff. right. now apply (in_list 2 enc_nprop).
    + pose proof (lv_in lv_nprop l x I). lia.
  - intros x ->. cbn. rewrite (down_reads edge_reads); [reflexivity|exact Oo| |unfold lv_opt in L; lia].
    eapply wire_small; [exact Sm|]. apply in_app_iff. left. now left.
  - now intros ->.
Qed.
Definition lv_out (v : pout) : nat :=
  match v with
  | PONone | POCount _ => 0
  | POVertices l => S (lv_list lv_vertex l)
  | POEdges l => S (lv_list lv_edge l)
  | POVertexProperties l => S (lv_list lv_vprops l)
  | POEdgeProperties l => S (lv_list lv_eprops l)
  end.
Definition out_ok (v : pout) : Prop :=
  match v with
  | PONone => True
  | POCount n => (n < 2 ^ 64)%N
  | POVertices l => Forall vertex_ok l
  | POEdges l => Forall edge_ok l
  | POVertexProperties l => Forall vprops_ok l
  | POEdgeProperties l => Forall eprops_ok l
  end.
Lemma merge_single {M} (step : M -> N * wval -> option M) d m t b : (1 <= t < 16)%N -> small (wire [(t, WLen b)]) ->
  merge step d m (wire [(t, WLen b)]) = step m (t, WLen b).
Proof. intros T Sm. rewrite merge_wire; [|repeat constructor; cbn; lia|assumption]. cbn. now destruct (step m _). Qed.
Lemma out_reads : reads dec_out PONone enc_out lv_out out_ok.
Proof.
  intros [|l|l|n|l|l] d O Sm L; unfold dec_out, enc_out, lv_out, out_ok in *; try (rewrite merge_single by (assumption || lia); apply small_body in Sm; cbn).
  - reflexivity.
  - now rewrite (down_reads (list_reads vertex_reads)).
  - now rewrite (down_reads (list_reads edge_reads)).
  - rewrite merge_wire; [reflexivity| |assumption]. repeat constructor; cbn; lia.
  - now rewrite (down_reads (list_reads vprops_reads)).
  - now rewrite (down_reads (list_reads eprops_reads)).
Qed.

(** ** Requests *)
Definition vbulk_body (i : option puuid) (n : option pident) (v : option pjson) : bytes :=
  wire (put_opt 1 enc_uuid i ++ put_opt 3 enc_json v ++ put_opt 4 enc_ident n).
Definition ebulk_body (e : option pedge) (n : option pident) (v : option pjson) : bytes :=
  wire (put_opt 1 enc_edge e ++ put_opt 3 enc_json v ++ put_opt 4 enc_ident n).
Definition lv_vbulk (i : option puuid) (n : option pident) (v : option pjson) : nat :=
  Nat.max (lv_opt (@zero _) i) (Nat.max (lv_opt (@zero _) n) (lv_opt (@zero _) v)).
Definition lv_ebulk (e : option pedge) (n : option pident) (v : option pjson) : nat :=
  Nat.max (lv_opt lv_edge e) (Nat.max (lv_opt (@zero _) n) (lv_opt (@zero _) v)).
Lemma vbulk_reads i n v d : opt_ok ident_utf8 n -> opt_ok json_utf8 v -> small (vbulk_body i n v) -> (lv_vbulk i n v <= d)%nat ->
  dec_vbulk d (None, None, None) (vbulk_body i n v) = Some (i, n, v).
Proof.
  intros On Ov Sm L. unfold dec_vbulk, vbulk_body, lv_vbulk in *. rewrite merge_wire by (assumption || shapes).
  destruct i, n, v; unfold lv_opt, put_opt in *; cbn in *; fields_in Sm; reflexivity.
Qed.
Lemma ebulk_reads e n v d : opt_ok edge_ok e -> opt_ok ident_utf8 n -> opt_ok json_utf8 v -> small (ebulk_body e n v) -> (lv_ebulk e n v <= d)%nat ->
  dec_ebulk d (None, None, None) (ebulk_body e n v) = Some (e, n, v).
Proof.
  intros Oe On Ov Sm L. unfold dec_ebulk, ebulk_body, lv_ebulk in *. rewrite merge_wire by (assumption || shapes).
  rewrite fold_opt with (m' := (e, @None pident, @None pjson)).
  - apply Nat.max_lub_r in L. destruct n, v; unfold lv_opt, put_opt in *; cbn in *; fields_in Sm; reflexivity.
  - intros x ->. cbn. rewrite (down_reads edge_reads); [reflexivity|exact Oe| |unfold lv_opt in L; lia].
    eapply wire_small; [exact Sm|]. apply in_app_iff. left. now left.
  - now intros ->.
Qed.
Definition lv_bulk (it : pbulk) : nat :=
  match it with
  | PBNone => 0
  | PBVertex v => S (lv_vertex v)
  | PBEdge e => S (lv_edge e)
  | PBVertexProperty i n v => S (lv_vbulk i n v)
  | PBEdgeProperty e n v => S (lv_ebulk e n v)
  end.
Definition bulk_ok (it : pbulk) : Prop :=
  match it with
  | PBNone => True
  | PBVertex v => vertex_ok v
  | PBEdge e => edge_ok e
  | PBVertexProperty i n v => opt_ok ident_utf8 n /\ opt_ok json_utf8 v
  | PBEdgeProperty e n v => opt_ok edge_ok e /\ opt_ok ident_utf8 n /\ opt_ok json_utf8 v
  end.
Local Arguments dec_vbulk : simpl never.
Local Arguments dec_ebulk : simpl never.
Lemma bulk_reads : reads dec_bulk PBNone enc_bulk lv_bulk bulk_ok.
Proof.
  intros [|v|e|i n v|e n v] d O Sm L; unfold dec_bulk, enc_bulk, lv_bulk, bulk_ok in *; try (rewrite merge_single by (assumption || lia); apply small_body in Sm; cbn).
  - reflexivity.
  - now rewrite (down_reads vertex_reads).
  - now rewrite (down_reads edge_reads).
  - destruct d; [lia|]. unfold down. destruct O. fold (vbulk_body i n v) in *. rewrite vbulk_reads; auto. lia.
  - destruct d; [lia|]. unfold down. destruct O as (? & ? & ?). fold (ebulk_body e n v) in *. rewrite ebulk_reads; auto. lia.
Qed.
Lemma index_req_reads : reads dec_index_req (PIndexReq None) enc_index_req (fun r => lv_opt (@zero _) (pir_name r)) (fun r => opt_ok ident_utf8 (pir_name r)).
Proof. intros [n] d O Sm L. unfold dec_index_req, enc_index_req in *. cbn [pir_name] in *. now rewrite name_reads. Qed.

Definition lv_set_req (r : pset_req) : nat := Nat.max (lv_opt lv_query (psr_q r)) (Nat.max (lv_opt (@zero _) (psr_name r)) (lv_opt (@zero _) (psr_value r))).
Definition set_req_ok (r : pset_req) : Prop := opt_ok query_ok (psr_q r) /\ opt_ok ident_utf8 (psr_name r) /\ opt_ok json_utf8 (psr_value r).
Local Arguments dec_query : simpl never.
Lemma set_req_reads : reads dec_set_req (PSetReq None None None) enc_set_req lv_set_req set_req_ok.
Proof.
  intros [q n v] d (Oq & On & Ov) Sm L. unfold dec_set_req, enc_set_req, lv_set_req in *. cbn [psr_q psr_name psr_value] in *. rewrite merge_wire by (assumption || shapes).
  rewrite fold_opt with (m' := PSetReq q None None).
  - apply Nat.max_lub_r in L. destruct n, v; unfold lv_opt, put_opt in *; cbn -[enc_query] in *; fields_in Sm; reflexivity.
  - intros x ->. cbn. unfold opt_query. cbn. rewrite (down_reads query_reads); [reflexivity|exact Oq| |unfold lv_opt in L; lia].
    eapply wire_small; [exact Sm|]. apply in_app_iff. left. now left.
  - now intros ->.
Qed.
Lemma set_req_deep r d m0 : set_req_ok r -> small (enc_set_req r) -> (d < lv_opt lv_query (psr_q r))%nat -> dec_set_req d m0 (enc_set_req r) = None.
Proof.
  destruct r as [q n v]. intros (Oq & On & Ov) Sm L. unfold dec_set_req, enc_set_req in *. cbn [psr_q psr_name psr_value] in *. rewrite merge_wire by (assumption || shapes).
  destruct q as [q|]; [|unfold lv_opt in L; lia]. eapply fold_fields_fail; [rewrite in_app_iff; left; now left|]. intros m. cbn. unfold opt_query. cbn.
  rewrite (down_deep query_deep); auto. eapply wire_small; [exact Sm|]. apply in_app_iff. left. now left.
Qed.

Lemma created_reads d b : dec_created d false (enc_created b) = Some b.
Proof. unfold dec_created, enc_created. rewrite merge_wire; [now destruct b|shapes|]. destruct b; vm_compute; reflexivity. Qed.
Lemma plugin_req_reads : reads dec_plugin_req ([], None) enc_plugin_req (fun r => lv_opt (@zero _) (snd r)) (fun r => utf8_valid (fst r) = true /\ opt_ok json_utf8 (snd r)).
Proof.
  intros [n v] d [On Ov] Sm L. unfold dec_plugin_req, enc_plugin_req in *. cbn [fst snd] in *. rewrite merge_wire by (assumption || shapes).
  destruct n as [|x n], v; unfold lv_opt, put_opt, put_bytes in *; cbn -[utf8_valid] in *; rewrite ?On; cbn; fields_in Sm; reflexivity.
Qed.
Lemma plugin_res_reads : reads dec_plugin_res None enc_plugin_res (lv_opt (@zero _)) (opt_ok json_utf8).
Proof.
  intros v d Ov Sm L. unfold dec_plugin_res, enc_plugin_res in *. rewrite merge_wire by (assumption || shapes).
  destruct v; unfold lv_opt, put_opt in *; cbn in *; fields_in Sm; reflexivity.
Qed.

(** ** The bound on the number of calls in [fields] is never reached *)
Lemma unvarint_shorter k : forall b n r, unvarint_aux k b = Some (n, r) -> (length r < length b)%nat.
Proof.
  induction k as [|k IH]; intros [|x b] n r; cbn [unvarint_aux]; try discriminate. destruct (bN x <? 128)%N.
  - destruct ((k =? 0)%nat && (2 <=? bN x)%N); [discriminate|]. intros E; inversion E; subst. cbn. lia.
  - destruct (unvarint_aux k b) as [[m r']|] eqn:U; [|discriminate]. intros E; inversion E; subst. apply IH in U. cbn. lia.
Qed.
Lemma get_key_shorter b t w r : get_key b = Some (t, w, r) -> (length r < length b)%nat.
Proof.
  unfold get_key. destruct (unvarint b) as [[k r']|] eqn:U; [|discriminate]. destruct (2 ^ 32 <=? k)%N; [discriminate|].
  destruct (k / 8 =? 0)%N; [discriminate|]. intros E; inversion E; subst. eapply unvarint_shorter, U.
Qed.
Lemma take_shorter n b x r : take n b = Some (x, r) -> (length r <= length b)%nat.
Proof. unfold take. destruct (lenN b <? n)%N; [discriminate|]. intros E; inversion E; subst. rewrite skipn_length. lia. Qed.
Lemma skip_shorter F : (forall d t w b r, skip_field F d t w b = Some r -> (length r <= length b)%nat) /\
  (forall d t b r, skip_group F d t b = Some r -> (length r < length b)%nat).
Proof.
  induction F as [|F [IH1 IH2]]; [split; intros; discriminate|]. split.
  - intros [|d] t w b r; [discriminate|]. cbn [skip_field].
    destruct (w =? 0)%N. { destruct (unvarint b) as [[n r']|] eqn:U; [|discriminate]. intros E; inversion E; subst. apply unvarint_shorter in U. cbn. lia. }
    destruct (w =? 1)%N. { destruct (take 8 b) as [[n r']|] eqn:U; [|discriminate]. intros E; inversion E; subst. eapply take_shorter, U. }
    destruct (w =? 2)%N.
    { destruct (unvarint b) as [[n r']|] eqn:U; [|discriminate]. destruct (take n r') as [[x r'']|] eqn:T; [|discriminate].
      intros E; inversion E; subst. apply unvarint_shorter in U. apply take_shorter in T. cbn. lia. }
    destruct (w =? 3)%N. { intros E. apply IH2 in E. lia. }
    destruct (w =? 5)%N; [|discriminate]. destruct (take 4 b) as [[n r']|] eqn:U; [|discriminate]. intros E; inversion E; subst. eapply take_shorter, U.
  - intros d t b r. cbn [skip_group]. destruct (get_key b) as [[[t' w] r1]|] eqn:K; [|discriminate]. apply get_key_shorter in K.
    destruct (w =? 4)%N; [destruct (t' =? t)%N; [|discriminate]; intros E; inversion E; subst; assumption|].
    destruct (skip_field F d t' w r1) as [r2|] eqn:E1; [|discriminate]. intros E2. apply IH1 in E1. apply IH2 in E2. lia.
Qed.
Lemma skip_enough F : (forall d t w b r f, skip_field F d t w b = Some r -> (length b < f + length r)%nat -> skip_field f d t w b = Some r) /\
  (forall d t b r f, skip_group F d t b = Some r -> (length b <= f + length r)%nat -> skip_group f d t b = Some r).
Proof.
  induction F as [|F [IH1 IH2]]; [split; intros; discriminate|]. split.
  - intros [|d] t w b r [|f]; try discriminate; cbn [skip_field].
    + intros E L. pose proof (proj1 (skip_shorter (S F)) (S d) t w b r E). lia.
    + destruct (w =? 0)%N; [auto|]. destruct (w =? 1)%N; [auto|]. destruct (w =? 2)%N; [auto|].
      destruct (w =? 3)%N; [|auto]. intros E L. apply IH2; [assumption|lia].
  - intros d t b r [|f] E L; [pose proof (proj2 (skip_shorter (S F)) d t b r E); lia|]. cbn [skip_group] in *.
    destruct (get_key b) as [[[t' w] r1]|] eqn:K; [|discriminate]. apply get_key_shorter in K.
    destruct (w =? 4)%N; [assumption|].
    destruct (skip_field F d t' w r1) as [r2|] eqn:E1; [|discriminate].
    pose proof (proj1 (skip_shorter F) _ _ _ _ _ E1). pose proof (proj2 (skip_shorter F) _ _ _ _ E).
    rewrite (IH1 _ _ _ _ _ f E1) by lia. apply IH2; [assumption|lia].
Qed.
Theorem fields_enough F : forall d b l f, fields F d b = Some l -> (length b < f)%nat -> fields f d b = Some l.
Proof.
  induction F as [|F IH]; intros d [|x b] l f; cbn [fields].
  - destruct f; auto.
  - discriminate.
  - destruct f; auto.
  - destruct f as [|f]; [lia|]. cbn [fields]. remember (x :: b) as y eqn:Y. clear Y x b. intros E L.
    destruct (get_key y) as [[[t w] r]|] eqn:K; [|discriminate]. apply get_key_shorter in K.
    destruct (w =? 0)%N.
    { destruct (unvarint r) as [[n r']|] eqn:U; [|discriminate]. apply unvarint_shorter in U.
      destruct (fields F d r') as [k|] eqn:E1; [|discriminate]. now rewrite (IH _ _ _ f E1) by lia. }
    destruct (w =? 2)%N.
    { destruct (unvarint r) as [[n r']|] eqn:U; [|discriminate]. apply unvarint_shorter in U.
      destruct (take n r') as [[v r'']|] eqn:T; [|discriminate]. apply take_shorter in T.
      destruct (fields F d r'') as [k|] eqn:E1; [|discriminate]. now rewrite (IH _ _ _ f E1) by lia. }
    destruct (skip_field F d t w r) as [r'|] eqn:S1; [|discriminate]. pose proof (proj1 (skip_shorter F) _ _ _ _ _ S1).
    rewrite (proj1 (skip_enough F) _ _ _ _ _ f S1) by lia.
    destruct (fields F d r') as [k|] eqn:E1; [|discriminate]. now rewrite (IH _ _ _ f E1) by lia.
Qed.

(** ** Fields a message does not have are skipped *)
Lemma merge_unknown {M} (step : M -> N * wval -> option M) d m l x : Forall field_shape (l ++ [x]) -> small (wire (l ++ [x])) ->
  (forall m, step m x = Some m) -> merge step d m (wire (l ++ [x])) = merge step d m (wire l).
Proof.
  intros F Sm U. rewrite merge_wire by assumption. apply Forall_app in F as [F1 F2].
  rewrite merge_wire; [|assumption|]. { rewrite fold_fields_app. destruct (fold_fields step m l); [|reflexivity]. cbn. now rewrite U. }
  unfold small, wire in *. rewrite flat_map_app, lenN_app in Sm. lia.
Qed.

Lemma query_unknown d q l t v : (16 <= t)%N -> Forall field_shape (l ++ [(t, v)]) -> small (wire (l ++ [(t, v)])) ->
  dec_query (S d) q (wire (l ++ [(t, v)])) = dec_query (S d) q (wire l).
Proof.
  intros T F Sm. rewrite !dec_query_merge. apply merge_unknown; [assumption|assumption|]. intros m. unfold query_step. cbn [fst snd].
  repeat match goal with |- context [(t =? ?k)%N] => destruct (N.eqb_spec t k) as [X|_]; [lia|] end. reflexivity.
Qed.
