(** * JSON values with arbitrary floats: text written is always read, as a value
    that differs only in its floats, and those are close *)
From Verif Require Import Base OMap Json JsonText F64 FloatText FloatFacts FloatClose FloatTotal MemFacts.

Set Implicit Arguments.

(** ** One float *)

Definition magnitude_of (bits : N) : Z := Z.of_N (bits mod 2 ^ 63).
Definition negative (bits : N) : bool := (2 ^ 63 <=? bits)%N.

Theorem read_written bits : wf_raw (RFlt bits) = true ->
  exists y, read_f64 (format64 bits) = Some y /\ negative y = negative bits /\
            close_to (scaled (magnitude_of bits)) (scaled (magnitude_of y)).
Proof.
  intros W. destruct (finite_bits _ W) as [B A]. destruct (N.eq_dec (bits mod 2 ^ 63) 0) as [Z0|Z0].
  { exists bits. pose proof (N.div_mod bits (2 ^ 63) ltac:(lia)) as DM. assert (bits / 2 ^ 63 < 2)%N as Dl by (apply N.div_lt_upper_bound; lia).
    assert (bits = 0 \/ bits = 2 ^ 63)%N as [->| ->] by lia; (split; [vm_compute; reflexivity|]; split; [reflexivity|]; vm_compute; discriminate). }
  unfold magnitude_of. set (a := Z.of_N (bits mod 2 ^ 63)) in *. assert (0 < a < inf)%Z as A' by lia. destruct (shortest a) as [d k] eqn:Es.
  destruct (magnitude A' Es) as (Dd & Kk & y & Y & Yb & Cl). destruct (layout_read from_parts Dd Kk) as (ip & fr & ex & El & Ip & Fr & Ex & Ne & Rd). rewrite Y in Rd.
  assert (format64 bits = (if negative bits then [x2d] else []) ++ layout d k) as Ef.
  { unfold format64. fold a. destruct (Z.eqb_spec a 0); [lia|]. now rewrite Es. }
  destruct Ip as (z & more & Ei & Di & Zi).
  assert (is_digit z = true) as Dz by (rewrite Ei in Di; cbn [forallb] in Di; apply andb_true_iff in Di as [Di _]; exact Di).
  assert (Z.to_N y < 2 ^ 63)%N as Yl.
  { assert (y < 2 ^ 63)%Z as Y3 by (destruct Yb; apply Z.lt_trans with inf; [assumption|reflexivity]). destruct Yb as [Y0 _]. clear - Y0 Y3. lia. }
  unfold read_f64. rewrite Ef. unfold negative. destruct (N.leb_spec (2 ^ 63) bits) as [G|G].
  - exists (Z.to_N y + 2 ^ 63)%N. split; [|split].
    + cbn [app]. unfold read_signed. rewrite beq_refl, Rd. reflexivity.
    + destruct (N.leb_spec (2 ^ 63) (Z.to_N y + 2 ^ 63)); [reflexivity|lia].
    + replace (Z.to_N y + 2 ^ 63)%N with (Z.to_N y + 1 * 2 ^ 63)%N by lia. rewrite N.mod_add by lia. rewrite N.mod_small by lia. now rewrite Z2N.id by lia.
  - exists (Z.to_N y). split; [|split].
    + cbn [app]. unfold read_signed. rewrite El, Ei. cbn [app]. rewrite (digit_not_minus _ Dz). change (z :: more ++ fr ++ ex) with ((z :: more) ++ fr ++ ex). rewrite <- Ei, <- El, Rd. reflexivity.
    + destruct (N.leb_spec (2 ^ 63) (Z.to_N y)); [lia|reflexivity].
    + rewrite N.mod_small by lia. now rewrite Z2N.id by lia.
Qed.

(** The float read from the text of [bits]. *)
Definition back (bits : N) : N := match read_f64 (format64 bits) with Some y => y | None => 0%N end.

(** ** A reader that knows what was written *)

Definition same_bytes (a b : list byte) : bool := if list_eq_dec Byte.byte_eq_dec a b then true else false.
Definition ghost (t : list byte) : option N :=
  match read_signed ideal t with
  | Some b => if wf_raw (RFlt b) && same_bytes (format64 b) t then Some b else None
  | None => None
  end.
Lemma ghost_back t b : ghost t = Some b -> read_f64 t = Some (back b).
Proof.
  unfold ghost. destruct (read_signed ideal t) as [x|]; [|discriminate]. destruct (wf_raw (RFlt x) && same_bytes (format64 x) t) eqn:C; [|discriminate].
  intros E. inversion E; subst x. apply andb_true_iff in C as [W S0]. unfold same_bytes in S0. destruct (list_eq_dec Byte.byte_eq_dec (format64 b) t) as [E'|]; [|discriminate].
  unfold back. rewrite E'. destruct (read_written _ W) as (y & Y & _). rewrite E' in Y. now rewrite Y.
Qed.

Lemma digits_split s : s = fst (digits s) ++ snd (digits s).
Proof. induction s as [|b s IH]; [reflexivity|]. cbn. destruct (is_digit b); [|reflexivity]. destruct (digits s) as [d r]. cbn in *. now rewrite IH. Qed.
Lemma fraction_split s fr r : fraction s = Some (fr, r) -> s = fr ++ r.
Proof.
  destruct s as [|b s]; cbn; [intros E; now inversion E|]. destruct (beq b x2e).
  - pose proof (digits_split s) as D. destruct (digits s) as [d r0]. cbn in D. destruct d; [discriminate|]. intros E. inversion E; subst. cbn. reflexivity.
  - intros E. now inversion E.
Qed.
Lemma exponent_split s ex r : exponent s = Some (ex, r) -> s = ex ++ r.
Proof.
  destruct s as [|b s]; cbn; [intros E; now inversion E|]. destruct (beq b x65 || beq b x45).
  - assert (exists sg r1, (match s with [] => ([], s) | c :: r1 => if beq c x2b || beq c x2d then ([c], r1) else ([], s) end) = (sg, r1) /\ s = sg ++ r1) as (sg & r1 & -> & Es).
    { destruct s as [|c r1]; [now exists [], []|]. destruct (beq c x2b || beq c x2d); [now exists [c], r1|now exists [], (c :: r1)]. }
    pose proof (digits_split r1) as D. destruct (digits r1) as [d r2]. cbn in D. destruct d; [discriminate|]. intros E. inversion E; subst. cbn. now rewrite <- app_assoc.
  - intros E. now inversion E.
Qed.

(** The text of a float that was read. *)
Lemma number_token f s b r : number f s = Some (RFlt b, r) -> exists t, s = t ++ r /\ f t = Some b /\ forall f', number f' s = floating f' t r.
Proof.
  unfold number.
  assert (exists neg s1, (match s with [] => (false, s) | b :: r => if beq b x2d then (true, r) else (false, s) end) = (neg, s1) /\ s = (if neg : bool then [x2d] else []) ++ s1) as (neg & s1 & -> & Es).
  { destruct s as [|c s]; [now exists false, []|]. destruct (beq c x2d) eqn:E; [|now exists false, (c :: s)]. exists true, s. split; auto.
    apply N.eqb_eq in E. unfold bN in E. apply (f_equal Byte.of_N) in E. rewrite !Byte.of_to_N in E. inversion E. reflexivity. }
  pose proof (digits_split s1) as D. destruct (digits s1) as [d s2]. cbn [fst snd] in D. destruct d as [|z more]; [discriminate|].
  destruct (beq z x30 && _); [discriminate|]. destruct (fraction s2) as [[fr s3]|] eqn:Fr; [|discriminate]. apply fraction_split in Fr.
  destruct (exponent s3) as [[ex s4]|] eqn:Ex; [|discriminate]. apply exponent_split in Ex. cbv zeta.
  set (t := (if neg then [x2d] else []) ++ (z :: more) ++ fr ++ ex). assert (s = t ++ s4) as Et by (subst t; rewrite Es, D, Fr, Ex, <- !app_assoc; reflexivity).
  assert (floating f t s4 = Some (RFlt b, r) -> s4 = r /\ f t = Some b) as Fl.
  { unfold floating. destruct (f t); [|discriminate]. intros E. inversion E; subst. auto. }
  destruct fr as [|c fr]; [destruct ex as [|c ex]|].
  - destruct neg.
    + destruct (_ && _); [discriminate|]. intros E. destruct (Fl E) as [<- X]. exists t. auto.
    + destruct (_ <? _)%N; [discriminate|]. intros E. destruct (Fl E) as [<- X]. exists t. auto.
  - intros E. destruct (Fl E) as [<- X]. exists t. auto.
  - intros E. destruct (Fl E) as [<- X]. exists t. auto.
Qed.

Lemma ghost_ok bits : wf_raw (RFlt bits) = true -> float_ok format64 ghost bits.
Proof.
  intros W. destruct (ideal_ok _ W) as [St0 N0]. split; [exact St0|]. intros r R. specialize (N0 r R). destruct (number_token _ _ N0) as (t & Et & Ft & All).
  rewrite All. apply app_inv_tail in Et. unfold floating, ghost. rewrite Ft, W. unfold same_bytes. rewrite Et.
  destruct (list_eq_dec Byte.byte_eq_dec t t); [reflexivity|congruence].
Qed.

(** ** Whole values *)

Section Refloat.
  Variable g : N -> N.
  Fixpoint refloat (v : raw) : raw :=
    match v with
    | RFlt b => RFlt (g b)
    | RArr l => RArr (map refloat l)
    | RObj l => RObj (map (fun kv => (fst kv, refloat (snd kv))) l)
    | _ => v
    end.
  Notation both := (fun kv : list byte * raw => (fst kv, refloat (snd kv))).

  Lemma put_refloat k v l : map both (put k v l) = put k (refloat v) (map both l).
  Proof.
    induction l as [|[k' v'] l IH]; [reflexivity|]. cbn [put map fst snd]. destruct (cmp k k'); cbn [map fst snd]; [reflexivity|reflexivity|]. now rewrite IH.
  Qed.
  Lemma map_of_refloat l : map both (map_of l) = map_of (map both l).
  Proof.
    unfold map_of. change (@nil (list byte * raw)) with (map both []) at 2. generalize (@nil (list byte * raw)).
    induction l as [|[k v] l IH]; intros a; [reflexivity|]. cbn [fold_left map fst snd]. rewrite IH. f_equal. apply put_refloat.
  Qed.

  Variables fA fB : list byte -> option N.
  Hypothesis sim : forall t b, fA t = Some b -> fB t = Some (g b).
  Lemma floating_sim t r v r' : floating fA t r = Some (v, r') -> floating fB t r = Some (refloat v, r').
  Proof. unfold floating. destruct (fA t) as [b|] eqn:E; [|discriminate]. intros X. inversion X; subst. now rewrite (sim E). Qed.
  Lemma number_sim s v r : number fA s = Some (v, r) -> number fB s = Some (refloat v, r).
  Proof.
    unfold number. destruct (match s with [] => (false, s) | b :: r => if beq b x2d then (true, r) else (false, s) end) as [neg s1].
    destruct (digits s1) as [d s2]. destruct d as [|z more]; [discriminate|]. destruct (beq z x30 && _); [discriminate|].
    destruct (fraction s2) as [[fr s3]|]; [|discriminate]. destruct (exponent s3) as [[ex s4]|]; [|discriminate]. cbv zeta.
    destruct fr as [|c fr]; [destruct ex as [|c ex]|]; try apply floating_sim. destruct neg.
    - destruct (_ && _); [intros E; now inversion E|apply floating_sim].
    - destruct (_ <? _)%N; [intros E; now inversion E|apply floating_sim].
  Qed.
  Lemma word_sim w s u v r : refloat u = u -> word w s u = Some (v, r) -> word w s u = Some (refloat v, r).
  Proof. intros U. unfold word. destruct (lit w s); [|discriminate]. intros E. inversion E; subst. now rewrite U. Qed.
  Lemma all_sim f : forall d s,
    (forall v r, value fA f d s = Some (v, r) -> value fB f d s = Some (refloat v, r)) /\
    (forall l r, elements fA f d s = Some (l, r) -> elements fB f d s = Some (map refloat l, r)) /\
    (forall l r, members fA f d s = Some (l, r) -> members fB f d s = Some (map both l, r)).
  Proof.
    induction f as [|f IH]; intros d s; [repeat split; discriminate|]. repeat split.
    - intros v r. cbn [value]. fold (value fA) (value fB) (elements fA) (elements fB) (members fA) (members fB). destruct (skip s) as [|b r0]; [discriminate|].
      destruct (beq b x6e); [now apply word_sim|]. destruct (beq b x74); [now apply word_sim|]. destruct (beq b x66); [now apply word_sim|].
      destruct (beq b x22). { destruct (string r0) as [[t r']|]; [|discriminate]. intros E. now inversion E. }
      destruct (beq b x5b).
      { destruct (_ <=? _)%nat; [discriminate|]. destruct (skip r0) as [|c r1]; [discriminate|]. destruct (beq c x5d); [intros E; now inversion E|].
        destruct (elements fA f (pred d) r0) as [[l r2]|] eqn:X; [|discriminate]. intros E. inversion E; subst. apply IH in X. now rewrite X. }
      destruct (beq b x7b).
      { destruct (_ <=? _)%nat; [discriminate|]. destruct (skip r0) as [|c r1]; [discriminate|]. destruct (beq c x7d); [intros E; now inversion E|].
        destruct (members fA f (pred d) r0) as [[l r2]|] eqn:X; [|discriminate]. intros E. inversion E; subst. apply IH in X. rewrite X. cbn [refloat]. now rewrite map_of_refloat. }
      destruct (_ || _); [apply number_sim|discriminate].
    - intros l r. cbn [elements]. fold (value fA) (value fB) (elements fA) (elements fB) (members fA) (members fB). destruct (value fA f d s) as [[v r0]|] eqn:V; [|discriminate]. apply IH in V. rewrite V.
      destruct (skip r0) as [|c r1]; [discriminate|]. destruct (beq c x5d); [intros E; now inversion E|]. destruct (beq c x2c); [|discriminate].
      destruct (elements fA f d r1) as [[l' r2]|] eqn:X; [|discriminate]. intros E. inversion E; subst. apply IH in X. now rewrite X.
    - intros l r. cbn [members]. fold (value fA) (value fB) (elements fA) (elements fB) (members fA) (members fB). destruct (skip s) as [|q r0]; [discriminate|]. destruct (beq q x22); [|discriminate].
      destruct (string r0) as [[k r1]|]; [|discriminate]. destruct (skip r1) as [|c r2]; [discriminate|]. destruct (beq c x3a); [|discriminate].
      destruct (value fA f d r2) as [[v r3]|] eqn:V; [|discriminate]. apply IH in V. rewrite V.
      destruct (skip r3) as [|c2 r4]; [discriminate|]. destruct (beq c2 x7d); [intros E; now inversion E|]. destruct (beq c2 x2c); [|discriminate].
      destruct (members fA f d r4) as [[l' r5]|] eqn:X; [|discriminate]. intros E. inversion E; subst. apply IH in X. now rewrite X.
  Qed.
  Lemma read_sim s v : read fA s = Some v -> read fB s = Some (refloat v).
  Proof.
    unfold read. destruct (value fA _ _ s) as [[u r]|] eqn:V; [|discriminate]. apply all_sim in V. rewrite V. destruct (skip r); [|discriminate]. intros E. now inversion E.
  Qed.
End Refloat.

Lemma floats_wf v : wf_raw v = true -> Forall (fun b => wf_raw (RFlt b) = true) (floats v).
Proof.
  induction v as [|b|n|z|b|s|l IH|l IH] using raw_nested; intros W; cbn [floats]; try (now constructor).
  - cbn [wf_raw] in W. rewrite forallb_forall in W. rewrite Forall_forall in IH |- *. intros b Hb. apply in_flat_map in Hb as (x & Hx & Hb).
    specialize (IH x Hx (W x Hx)). rewrite Forall_forall in IH. auto.
  - cbn [wf_raw] in W. apply andb_true_iff in W as [_ W]. rewrite forallb_forall in W. rewrite Forall_forall in IH |- *. intros b Hb. apply in_flat_map in Hb as (x & Hx & Hb).
    specialize (W x Hx). apply andb_true_iff in W as [_ W]. specialize (IH x Hx W). rewrite Forall_forall in IH. auto.
Qed.

Theorem read_text_back (v : json) : (depth (jraw v) <= 127)%nat -> exists w, of_text read_f64 (to_text format64 v) = Some w /\ jraw w = refloat back (jraw v).
Proof.
  intros D. pose proof (floats_wf _ (proj2_sig v)) as Fw. assert (Forall (float_ok format64 ghost) (floats (jraw v))) as Fg.
  { eapply Forall_impl; [|exact Fw]. intros b. apply ghost_ok. }
  pose proof (@of_text_to_text format64 ghost v Fg D) as R. unfold of_text in R.
  destruct (read ghost (to_text format64 v)) as [u|] eqn:Ru; [|discriminate]. destruct (Bool.bool_dec (wf_raw u) true) as [Wu|]; [|discriminate].
  assert (u = jraw v) as -> by (apply (f_equal (option_map (@jraw))) in R; cbn [option_map jraw proj1_sig] in R; congruence).
  apply (@read_sim back ghost read_f64 ghost_back) in Ru. unfold of_text. rewrite Ru.
  assert (wf_raw (refloat back (jraw v)) = true) as Wr by (apply (@read_wf read_f64 read_finite _ _ Ru)).
  destruct (Bool.bool_dec (wf_raw (refloat back (jraw v))) true) as [E|]; [|contradiction]. eexists. split; reflexivity.
Qed.

(** ** Nothing deeper is read, whatever the floats *)

Lemma deeper fr f :
  (forall d d' s x, (d <= d')%nat -> value fr f d s = Some x -> value fr f d' s = Some x) /\
  (forall d d' s x, (d <= d')%nat -> elements fr f d s = Some x -> elements fr f d' s = Some x) /\
  (forall d d' s x, (d <= d')%nat -> members fr f d s = Some x -> members fr f d' s = Some x).
Proof.
  induction f as [|f (IV & IE & IM)]; [conj; discriminate|]. conj.
  - intros d d' s x L E. cbn [value] in *. fold (elements fr) (members fr) in *. destruct (skip s) as [|b s1]; [discriminate|].
    destruct (beq b x6e); [assumption|]. destruct (beq b x74); [assumption|]. destruct (beq b x66); [assumption|]. destruct (beq b x22); [assumption|].
    destruct (beq b x5b).
    { destruct (Nat.leb_spec d 1) as [|G]; [discriminate|]. destruct (Nat.leb_spec d' 1) as [|G']; [lia|]. destruct (skip s1) as [|c s2]; [discriminate|]. destruct (beq c x5d); [assumption|].
      destruct (elements fr f (pred d) s1) as [[l r2]|] eqn:X; [|discriminate]. rewrite (IE (pred d) (pred d') _ _ ltac:(lia) X). assumption. }
    destruct (beq b x7b).
    { destruct (Nat.leb_spec d 1) as [|G]; [discriminate|]. destruct (Nat.leb_spec d' 1) as [|G']; [lia|]. destruct (skip s1) as [|c s2]; [discriminate|]. destruct (beq c x7d); [assumption|].
      destruct (members fr f (pred d) s1) as [[l r2]|] eqn:X; [|discriminate]. rewrite (IM (pred d) (pred d') _ _ ltac:(lia) X). assumption. }
    assumption.
  - intros d d' s x L E. cbn [elements] in *. fold (value fr) (elements fr) in *. destruct (value fr f d s) as [[v s1]|] eqn:X; [|discriminate]. rewrite (IV _ d' _ _ L X).
    destruct (skip s1) as [|c s2]; [discriminate|]. destruct (beq c x5d); [assumption|].
    destruct (beq c x2c); [|discriminate]. destruct (elements fr f d s2) as [[l' r2]|] eqn:Y; [|discriminate]. rewrite (IE _ d' _ _ L Y). assumption.
  - intros d d' s x L E. cbn [members] in *. fold (value fr) (members fr) in *. destruct (skip s) as [|b s0]; [discriminate|].
    destruct (beq b x22); [|discriminate]. destruct (string s0) as [[k s1]|]; [|discriminate].
    destruct (skip s1) as [|c s2]; [discriminate|]. destruct (beq c x3a); [|discriminate].
    destruct (value fr f d s2) as [[v s3]|] eqn:X; [|discriminate]. rewrite (IV _ d' _ _ L X).
    destruct (skip s3) as [|c2 s4]; [discriminate|]. destruct (beq c2 x7d); [assumption|].
    destruct (beq c2 x2c); [|discriminate]. destruct (members fr f d s4) as [[l' r2]|] eqn:Y; [|discriminate]. rewrite (IM _ d' _ _ L Y). assumption.
Qed.
Lemma refloat_depth g v : depth (refloat g v) = depth v.
Proof.
  induction v as [|b|n|z|b|s|l IH|l IH] using raw_nested; try reflexivity; cbn [refloat depth]; do 2 f_equal; rewrite map_map; apply map_ext_in; intros x Hx; rewrite Forall_forall in IH; cbn [snd]; auto.
Qed.

Theorem too_deep (v : json) : (128 <= depth (jraw v))%nat -> of_text read_f64 (to_text format64 v) = None.
Proof.
  intros D. destruct (of_text read_f64 (to_text format64 v)) as [w|] eqn:E; [exfalso|reflexivity].
  pose proof (@of_text_depth read_f64 _ _ E) as Dw. unfold of_text in E. destruct (read read_f64 (to_text format64 v)) as [u|] eqn:R; [|discriminate].
  destruct (Bool.bool_dec (wf_raw u) true) as [Wu|]; [|discriminate].
  assert (u = jraw w) as -> by (apply (f_equal (option_map (@jraw))) in E; cbn [option_map jraw proj1_sig] in E; congruence).
  unfold read in R. set (t := to_text format64 v) in *. destruct (value read_f64 (2 * length t + 2) 128 t) as [[u r]|] eqn:V; [|discriminate].
  assert (u = jraw w) as -> by (destruct (skip r); inversion R; reflexivity).
  pose (zero := fun _ : N => 0%N). pose (any := fun _ : list byte => Some 0%N).
  apply (proj1 (@all_sim zero read_f64 any ltac:(reflexivity) _ _ _)) in V.
  pose (d := S (depth (jraw v))). pose (f := weight (jraw v)).
  assert (Forall (float_ok format64 ghost) (floats (jraw v))) as Fg.
  { eapply Forall_impl; [|exact (floats_wf _ (proj2_sig v))]. intros b. apply ghost_ok. }
  pose proof (@value_text format64 ghost (jraw v) (proj2_sig v) Fg d f [] ltac:(lia) ltac:(lia) I) as G. rewrite app_nil_r in G. change (text format64 (jraw v)) with t in G.
  apply (proj1 (@all_sim zero ghost any ltac:(reflexivity) _ _ _)) in G.
  apply (proj1 (deeper any _)) with (d' := d) in V; [|lia].
  apply (proj1 (enough format64 any _)) with (f' := (2 * length t)%nat) in G; [|lia]. apply (proj1 (enough format64 any _)) with (f' := (2 * length t)%nat) in V; [|lia].
  rewrite G in V. assert (refloat zero (jraw v) = refloat zero (jraw w)) as X by (inversion V; reflexivity).
  apply (f_equal depth) in X. rewrite !refloat_depth in X. lia.
Qed.
