(** * Specification of the order and equality of property values, and of the
    conversion of integers to doubles; the model's functions meet it. *)
From Verif Require Import Base OMap Json JsonFacts.

Set Implicit Arguments.

(** ** Specification *)

(** Lexicographic comparison of lists: the first difference decides, a proper
    prefix is smaller. *)
Inductive lex_order {A} (R : A -> A -> comparison -> Prop) : list A -> list A -> comparison -> Prop :=
| lex_nil : lex_order R [] [] Eq
| lex_short b l : lex_order R [] (b :: l) Lt
| lex_long a l : lex_order R (a :: l) [] Gt
| lex_diff a b l l' c : R a b c -> c <> Eq -> lex_order R (a :: l) (b :: l') c
| lex_same a b l l' c : R a b Eq -> lex_order R l l' c -> lex_order R (a :: l) (b :: l') c.

(** Object fields: by key, then by value. *)
Inductive field_order {K V} {O : Ord K} (R : V -> V -> comparison -> Prop) : K * V -> K * V -> comparison -> Prop :=
| field_key k k' v v' : k <> k' -> field_order R (k, v) (k', v') (cmp k k')
| field_value k v v' c : R v v' c -> field_order R (k, v) (k, v') c.

(** Two integers compare by value; as soon as a float is involved both numbers
    compare as doubles ([as_f64], scaled by [2^1074]). *)
Inductive value_order : raw -> raw -> comparison -> Prop :=
| vo_null : value_order RNull RNull Eq
| vo_bool_same b : value_order (RBool b) (RBool b) Eq
| vo_bool_lt : value_order (RBool false) (RBool true) Lt
| vo_bool_gt : value_order (RBool true) (RBool false) Gt
| vo_int a b : is_int a = true -> is_int b = true -> value_order a b (Z.compare (zval a) (zval b))
| vo_float a b : is_num a = true -> is_num b = true -> is_flt a = true \/ is_flt b = true ->
    value_order a b (Z.compare (as_f64 a) (as_f64 b))
| vo_str s t : value_order (RStr s) (RStr t) (cmp s t)
| vo_arr l l' c : lex_order value_order l l' c -> value_order (RArr l) (RArr l') c
| vo_obj l l' c : lex_order (field_order value_order) l l' c -> value_order (RObj l) (RObj l') c.

(** ** The model's comparison meets it *)

Lemma lex_by {A} (f : A -> A -> option comparison) (R : A -> A -> comparison -> Prop) l : forall l' c,
  (forall a b c, In a l -> In b l' -> f a b = Some c <-> R a b c) ->
  partial_cmp_by f l l' = Some c <-> lex_order R l l' c.
Proof.
  induction l as [|a l IH]; intros [|b l'] c Hf; cbn [partial_cmp_by].
  - split; intros X; inversion X; constructor.
  - split; intros X; inversion X; constructor.
  - split; intros X; inversion X; constructor.
  - assert (forall c, f a b = Some c <-> R a b c) as Hab by (intros; apply Hf; now left).
    assert (forall c, partial_cmp_by f l l' = Some c <-> lex_order R l l' c) as Hl.
    { intros d. apply IH. intros x y e Hx Hy. apply Hf; now right. }
    split.
    + destruct (f a b) as [[]|] eqn:E; intros X.
      * apply lex_same; [now apply Hab|now apply Hl].
      * inversion X; subst. apply lex_diff; [now apply Hab|discriminate].
      * inversion X; subst. apply lex_diff; [now apply Hab|discriminate].
      * discriminate.
    + intros X. inversion X as [| | |? ? ? ? ? Hr Hn|? ? ? ? ? Hr Ht]; subst.
      * apply Hab in Hr. rewrite Hr. destruct c; [now destruct Hn| |]; reflexivity.
      * apply Hab in Hr. rewrite Hr. now apply Hl.
Qed.

Lemma field_by (f : raw -> raw -> option comparison) R (p q : list byte * raw) c :
  (forall c, f (snd p) (snd q) = Some c <-> R (snd p) (snd q) c) ->
  match cmp (fst p) (fst q) with Eq => f (snd p) (snd q) | c => Some c end = Some c <-> field_order R p q c.
Proof.
  destruct p as [k v], q as [k' v']. cbn [fst snd]. intros Hf. split.
  - destruct (cmp k k') eqn:E; intros X.
    + apply cmp_eq in E. subst. constructor. now apply Hf.
    + inversion X; subst. rewrite <- E. constructor. intros ->. rewrite cmp_refl in E. discriminate.
    + inversion X; subst. rewrite <- E. constructor. intros ->. rewrite cmp_refl in E. discriminate.
  - intros X. inversion X as [? ? ? ? N|? ? ? ? Hr]; subst.
    + destruct (cmp k k') eqn:E; [|reflexivity|reflexivity]. apply cmp_eq in E. now destruct N.
    + rewrite cmp_refl. now apply Hf.
Qed.

Theorem value_order_pcmp a : forall b c, wf_raw a = true -> wf_raw b = true ->
  pcmp a b = Some c <-> value_order a b c.
Proof.
  assert (forall a b c, is_num a = true -> is_num b = true -> wf_raw a = true -> wf_raw b = true ->
            pcmp a b = Some c <-> value_order a b c) as Hnum.
  { intros x y c Nx Ny Wx Wy. rewrite pcmp_nums by assumption. split.
    - intros E. destruct (is_int x && is_int y) eqn:K.
      + apply andb_true_iff in K as [K1 K2]. rewrite num_cmp_int in E by assumption. inversion E; subst.
        now constructor.
      + assert (is_flt x = true \/ is_flt y = true) as F.
        { destruct x; try discriminate; destruct y; try discriminate; cbn in *; auto; discriminate. }
        rewrite num_cmp_flt in E; auto; [|now apply orb_true_iff]. inversion E; subst. apply vo_float; auto.
    - intros X. destruct X; try discriminate.
      + now rewrite num_cmp_int.
      + rewrite num_cmp_flt; auto. now apply orb_true_iff. }
  induction a as [|x|n|z|x|s|l IH|l IH] using raw_nested_ind; intros b c Wa Wb.
  - split; [intros E; destruct b; try discriminate E; inversion E; constructor|].
    intros X; inversion X; subst; try reflexivity; try discriminate.
  - split.
    + intros E. destruct b as [|y| | | | | |]; try discriminate E. cbn in E. destruct x, y; inversion E; constructor.
    + intros X; inversion X; subst; try discriminate; try (destruct x; reflexivity); reflexivity.
  - destruct (is_num b) eqn:Nb; [now apply Hnum|]. split.
    + intros E. destruct b; discriminate.
    + intros X; inversion X; subst; try discriminate; destruct b; discriminate.
  - destruct (is_num b) eqn:Nb; [now apply Hnum|]. split.
    + intros E. destruct b; discriminate.
    + intros X; inversion X; subst; try discriminate; destruct b; discriminate.
  - destruct (is_num b) eqn:Nb; [now apply Hnum|]. split.
    + intros E. destruct b; discriminate.
    + intros X; inversion X; subst; try discriminate; destruct b; discriminate.
  - split.
    + intros E. destruct b as [| | | | |t| |]; try discriminate E. change (Some (cmp s t) = Some c) in E.
      injection E as <-. constructor.
    + intros X; inversion X; subst; try discriminate. reflexivity.
  - assert (forall l', wf_raw (RArr l') = true -> forall c, pcmp (RArr l) (RArr l') = Some c <-> lex_order value_order l l' c) as K.
    { intros l' Wl' d. rewrite pcmp_arr. apply lex_by. rewrite Forall_forall in IH. cbn [wf_raw] in Wa, Wl'.
      intros x y e Hx Hy. apply IH; [assumption| |].
      - exact (forallb_forall_In _ _ _ Wa Hx).
      - exact (forallb_forall_In _ _ _ Wl' Hy). }
    split.
    + intros E. destruct b as [| | | | | |l'|]; try discriminate E. constructor. now apply K.
    + intros X; inversion X; subst; try discriminate. now apply K.
  - assert (forall l', wf_raw (RObj l') = true ->
              forall c, pcmp (RObj l) (RObj l') = Some c <-> lex_order (field_order value_order) l l' c) as K.
    { intros l' Wl' d. rewrite pcmp_obj. apply lex_by. rewrite Forall_forall in IH. cbn [wf_raw] in Wa, Wl'.
      apply andb_true_iff in Wa as [_ Wa]. apply andb_true_iff in Wl' as [_ Wl'].
      intros x y e Hx Hy. apply field_by. intros e'.
      eapply forallb_forall_In in Wa; [|exact Hx]. eapply forallb_forall_In in Wl'; [|exact Hy].
      cbn beta in Wa, Wl'. apply andb_true_iff in Wa as [_ Wa]. apply andb_true_iff in Wl' as [_ Wl'].
      apply IH; auto. }
    split.
    + intros E. destruct b as [| | | | | | |l']; try discriminate E. constructor. now apply K.
    + intros X; inversion X; subst; try discriminate. now apply K.
Qed.

(** ** Rounding of integers *)

(** The non-negative integers that are doubles (below overflow). *)
Definition representable (n : N) : Prop := exists q e : N, (q <= 2 ^ 53)%N /\ n = (q * 2 ^ e)%N.

Definition dist (a b : N) : N := (a - b + (b - a))%N.

Lemma round53_parts n : (53 <= N.log2 n)%N ->
  let e := (N.log2 n - 52)%N in
  exists q r, n = (q * 2 ^ e + r)%N /\ (r < 2 ^ e)%N /\ (2 ^ 52 <= q < 2 ^ 53)%N /\
    round53 n = ((if (2 ^ (e - 1) <? r)%N || ((2 ^ (e - 1) =? r)%N && N.odd q) then q + 1 else q) * 2 ^ e)%N.
Proof.
  intros L e. assert (e <> 0)%N as E0 by (unfold e; lia).
  assert (0 < n)%N as Hn by (destruct n; [cbn in L; lia|lia]).
  pose proof (N.log2_spec n Hn) as [S1 S2].
  assert (N.log2 n = e + 52)%N as EL by (unfold e; lia).
  assert (0 < 2 ^ e)%N as P by (apply N.neq_0_lt_0, N.pow_nonzero; discriminate).
  exists (n / 2 ^ e)%N, (n mod 2 ^ e)%N. split; [|split; [|split; [split|]]].
  - rewrite N.mul_comm. apply N.div_mod'.
  - apply N.mod_lt. lia.
  - apply N.div_le_lower_bound; [lia|]. rewrite <- N.pow_add_r. now rewrite <- EL.
  - apply N.div_lt_upper_bound; [lia|]. rewrite <- N.pow_add_r. replace (e + 53)%N with (N.succ (N.log2 n)) by lia. assumption.
  - unfold round53. fold e. destruct (N.eqb_spec e 0); [contradiction|]. reflexivity.
Qed.

Theorem round53_nearest n :
  representable (round53 n) /\
  (forall r, representable r -> (dist (round53 n) n <= dist r n)%N) /\
  (* a tie goes to the even one *)
  (forall r, representable r -> r <> round53 n -> dist (round53 n) n = dist r n ->
     exists e q, round53 n = (q * 2 ^ e)%N /\ (2 ^ 52 <= q <= 2 ^ 53)%N /\ N.even q = true).
Proof.
  destruct (N.leb_spec 53 (N.log2 n)) as [L|L].
  2:{ assert (round53 n = n) as ->.
      { unfold round53. destruct (N.eqb_spec (N.log2 n - 52) 0); [reflexivity|lia]. }
      assert (n < 2 ^ 53)%N as B.
      { destruct n as [|p]; [reflexivity|]. apply N.log2_lt_pow2; lia. }
      split; [|split].
      - exists n, 0%N. rewrite N.pow_0_r. lia.
      - intros r _. unfold dist. lia.
      - intros r _ Ne. unfold dist. lia. }
  destruct (round53_parts _ L) as (q & r & En & Hr & Hq & ->). set (e := (N.log2 n - 52)%N) in *.
  set (q' := if (2 ^ (e - 1) <? r)%N || ((2 ^ (e - 1) =? r)%N && N.odd q) then (q + 1)%N else q).
  assert (2 ^ e = 2 * 2 ^ (e - 1))%N as Eh.
  { rewrite <- N.pow_succ_r'. f_equal. unfold e. lia. }
  set (h := (2 ^ (e - 1))%N) in *.
  assert (forall m, m = q \/ m = (q + 1)%N -> m <> q' -> (dist (q' * 2 ^ e) n <= dist (m * 2 ^ e) n)%N /\
            (dist (q' * 2 ^ e) n = dist (m * 2 ^ e) n -> N.even q' = true)) as Near.
  { intros m Hm Hne. unfold q' in *.
    assert (dist (q * 2 ^ e) n = r) as D0 by (unfold dist; lia).
    assert (dist ((q + 1) * 2 ^ e) n = 2 ^ e - r)%N as D1 by (unfold dist; lia).
    destruct (N.ltb_spec h r) as [K|K]; cbn [orb] in *.
    - destruct Hm as [->| ->]; [|now destruct Hne]. rewrite D0, D1. split; lia.
    - destruct (N.eqb_spec h r) as [K'|K']; cbn [andb] in *.
      + destruct (N.odd q) eqn:O.
        * destruct Hm as [->| ->]; [|now destruct Hne]. rewrite D0, D1. split; [lia|]. intros _.
          rewrite N.add_1_r, N.even_succ. assumption.
        * destruct Hm as [->| ->]; [now destruct Hne|]. rewrite D0, D1. split; [lia|]. intros _.
          rewrite <- N.negb_odd. now rewrite O.
      + destruct Hm as [->| ->]; [now destruct Hne|]. rewrite D0, D1. split; lia. }
  assert (q' = q \/ q' = q + 1)%N as Hq' by (unfold q'; destruct (_ || _); auto).
  (* every representable number is no nearer than one of the two neighbours *)
  assert (forall s, representable s -> exists m, (m = q \/ m = q + 1)%N /\ (dist (m * 2 ^ e) n <= dist s n)%N /\
             (dist (m * 2 ^ e) n = dist s n -> s = m * 2 ^ e)%N) as Repr.
  { intros s (x & f & Hx & Es). destruct (N.leb_spec e f) as [F|F].
    - (* a multiple *)
      assert (exists y, s = y * 2 ^ e)%N as [y Ey].
      { exists (x * 2 ^ (f - e))%N. rewrite <- N.mul_assoc, <- N.pow_add_r. replace (f - e + e)%N with f by lia. assumption. }
      destruct (N.leb_spec y q) as [Y|Y].
      + exists q. split; [auto|]. assert (exists d, q = y + d)%N as [d ->] by (exists (q - y)%N; lia).
        rewrite Ey. unfold dist.
        assert ((y + d) * 2 ^ e = y * 2 ^ e + d * 2 ^ e)%N as Ed by lia. rewrite Ed in *.
        split; [lia|]. intros X. lia.
      + exists (q + 1)%N. split; [auto|]. assert (exists d, y = q + 1 + d)%N as [d ->] by (exists (y - (q + 1))%N; lia).
        rewrite Ey. unfold dist.
        assert ((q + 1 + d) * 2 ^ e = q * 2 ^ e + 2 ^ e + d * 2 ^ e)%N as Ed by lia.
        assert ((q + 1) * 2 ^ e = q * 2 ^ e + 2 ^ e)%N as Ed' by lia. rewrite Ed, Ed' in *.
        split; [lia|]. intros X. lia.
    - (* a finer one: below the binade *)
      assert (s <= q * 2 ^ e)%N as Sle.
      { rewrite Es. transitivity (2 ^ 53 * 2 ^ f)%N; [apply N.mul_le_mono_r; lia|].
        transitivity (2 ^ 52 * 2 ^ e)%N; [|apply N.mul_le_mono_r; lia].
        rewrite <- !N.pow_add_r. apply N.pow_le_mono_r; lia. }
      exists q. split; [auto|]. unfold dist. split; lia. }
  split; [|split].
  - exists q', e. split; [lia|reflexivity].
  - intros s Hs. destruct (Repr s Hs) as (m & Hm & Hd & _).
    destruct (N.eq_dec m q') as [->|Hne]; [assumption|].
    destruct (Near m Hm Hne) as [Hn _]. lia.
  - intros s Hs Hne Heq. destruct (Repr s Hs) as (m & Hm & Hd & Hd').
    exists e, q'. split; [reflexivity|]. split; [lia|].
    destruct (N.eq_dec m q') as [->|Hne'].
    + exfalso. apply Hne. apply Hd'. assumption.
    + destruct (Near m Hm Hne') as [Hn Hn']. apply Hn'. lia.
Qed.
