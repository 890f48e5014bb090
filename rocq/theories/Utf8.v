(** * UTF-8: the decoder of Base.v against the encoding rules.

    [utf8_enc] is the encoding of one Unicode scalar value (RFC 3629); a byte
    string decodes to a list of scalar values exactly when it is the
    concatenation of their encodings. *)
From Verif Require Import Base.

Set Implicit Arguments.

(** Unicode scalar values: code points that are not surrogates (Rust [char]). *)
Definition scalar_value (c : N) : Prop := (c < 0xD800 \/ 0xE000 <= c < 0x110000)%N.

Definition utf8_enc (c : N) : list byte :=
  if (c <? 0x80)%N then [byte_of c]
  else if (c <? 0x800)%N then [byte_of (0xC0 + c / 64); byte_of (0x80 + c mod 64)]
  else if (c <? 0x10000)%N then
    [byte_of (0xE0 + c / 4096); byte_of (0x80 + (c / 64) mod 64); byte_of (0x80 + c mod 64)]
  else [byte_of (0xF0 + c / 262144); byte_of (0x80 + (c / 4096) mod 64);
        byte_of (0x80 + (c / 64) mod 64); byte_of (0x80 + c mod 64)].

Ltac nlia := zify; Z.to_euclidean_division_equations; lia.

Lemma bN_small n : (n < 256)%N -> bN (byte_of n) = n.
Proof. intros H. rewrite bN_byte_of. now apply N.mod_small. Qed.

Lemma byte_of_eq n b : n = bN b -> byte_of n = b.
Proof. intros ->. apply byte_of_bN. Qed.

Lemma cont_iff n : cont n = true <-> (128 <= n <= 191)%N.
Proof. unfold cont. rewrite andb_true_iff, !N.leb_le. lia. Qed.

Lemma utf8_chars_enc1 c l : scalar_value c ->
  utf8_chars (utf8_enc c ++ l) = option_map (cons c) (utf8_chars l).
Proof.
  intros Hc. unfold utf8_enc, scalar_value in *.
  destruct (N.ltb_spec c 0x80) as [L1|L1].
  { cbn [app utf8_chars]. rewrite bN_small by lia. now rewrite (proj2 (N.ltb_lt c 128) L1). }
  destruct (N.ltb_spec c 0x800) as [L2|L2].
  { cbn [app utf8_chars]. rewrite !bN_small by nlia.
    destruct (N.ltb_spec (0xC0 + c / 64) 128) as [X|_]; [exfalso; nlia|].
    match goal with |- context [if ?b then _ else _] => assert (b = true) as -> end.
    { rewrite !andb_true_iff, cont_iff, !N.leb_le. nlia. }
    repeat f_equal. nlia. }
  destruct (N.ltb_spec c 0x10000) as [L3|L3].
  { cbn [app utf8_chars]. rewrite !bN_small by nlia.
    destruct (N.ltb_spec (0xE0 + c / 4096) 128) as [X|_]; [exfalso; nlia|].
    match goal with |- context [if ?b then _ else _] => assert (b = false) as -> end.
    { rewrite <- not_true_iff_false, !andb_true_iff, !N.leb_le. nlia. }
    match goal with |- context [if ?b then _ else _] => assert (b = true) as -> end.
    { rewrite !andb_true_iff, !orb_true_iff, !andb_true_iff, !cont_iff, !N.leb_le, !N.eqb_eq. nlia. }
    repeat f_equal. nlia. }
  cbn [app utf8_chars]. rewrite !bN_small by nlia.
  destruct (N.ltb_spec (0xF0 + c / 262144) 128) as [X|_]; [exfalso; nlia|].
  match goal with |- context [if ?b then _ else _] => assert (b = false) as -> end.
  { rewrite <- not_true_iff_false, !andb_true_iff, !N.leb_le. nlia. }
  match goal with |- context [if ?b then _ else _] => assert (b = false) as -> end.
  { rewrite <- not_true_iff_false, !andb_true_iff, !orb_true_iff, !andb_true_iff, !N.leb_le, !N.eqb_eq. nlia. }
  match goal with |- context [if ?b then _ else _] => assert (b = true) as -> end.
  { rewrite !andb_true_iff, !orb_true_iff, !andb_true_iff, !cont_iff, !N.leb_le, !N.eqb_eq. nlia. }
  repeat f_equal. nlia.
Qed.

Lemma utf8_chars_complete cs : Forall scalar_value cs -> utf8_chars (flat_map utf8_enc cs) = Some cs.
Proof.
  induction 1 as [|c cs Hc H IH]; [reflexivity|]. cbn [flat_map]. rewrite utf8_chars_enc1, IH by assumption. reflexivity.
Qed.

Lemma utf8_chars_sound n : forall l cs, (length l <= n)%nat -> utf8_chars l = Some cs ->
  Forall scalar_value cs /\ l = flat_map utf8_enc cs.
Proof.
  assert (forall (c : N) (o : option (list N)) cs, option_map (cons c) o = Some cs ->
            exists r, o = Some r /\ cs = c :: r) as OM.
  { intros c [r|] cs E; cbn in E; inversion E; eauto. }
  assert (forall b, (bN b < 256)%N) as BB by apply bN_bound.
  induction n as [|n IH]; intros [|b0 l1] cs Hl; try (cbn in Hl; lia).
  1,2: cbn; intros E; inversion E; subst; auto.
  cbn [length] in Hl. cbn [utf8_chars].
  destruct (N.ltb_spec (bN b0) 128) as [L1|L1].
  { intros E. apply OM in E as (r & E & ->). apply IH in E as [F ->]; [|lia]. split.
    - constructor; [unfold scalar_value; lia|assumption].
    - cbn [flat_map]. f_equal. unfold utf8_enc. rewrite (proj2 (N.ltb_lt _ 0x80) L1). now rewrite byte_of_bN. }
  destruct l1 as [|b1 l2]; [discriminate|]. cbn [length] in Hl.
  pose proof (BB b0) as B0. pose proof (BB b1) as B1.
  match goal with |- context [if ?b then _ else _] => destruct b eqn:K1 end.
  { rewrite !andb_true_iff, cont_iff, !N.leb_le in K1.
    intros E. apply OM in E as (r & E & ->). apply IH in E as [F ->]; [|lia]. split.
    - constructor; [unfold scalar_value; lia|assumption].
    - cbn [flat_map].
      enough (utf8_enc ((bN b0 - 192) * 64 + (bN b1 - 128)) = [b0; b1]) as -> by reflexivity. unfold utf8_enc.
      destruct (N.ltb_spec ((bN b0 - 192) * 64 + (bN b1 - 128)) 0x80); [exfalso; lia|].
      destruct (N.ltb_spec ((bN b0 - 192) * 64 + (bN b1 - 128)) 0x800); [|exfalso; lia].
      f_equal; [|f_equal]; apply byte_of_eq; nlia. }
  destruct l2 as [|b2 l3]; [discriminate|]. cbn [length] in Hl. pose proof (BB b2) as B2.
  match goal with |- context [if ?b then _ else _] => destruct b eqn:K2 end.
  { clear K1. rewrite !andb_true_iff, !orb_true_iff, !andb_true_iff, !cont_iff, !N.leb_le, !N.eqb_eq in K2.
    intros E. apply OM in E as (r & E & ->). apply IH in E as [F ->]; [|lia].
    set (c := ((bN b0 - 224) * 4096 + (bN b1 - 128) * 64 + (bN b2 - 128))%N).
    assert (scalar_value c /\ 0x800 <= c < 0x10000)%N as [Hs Hr] by (unfold scalar_value, c; lia).
    split; [constructor; assumption|].
    cbn [flat_map]. enough (utf8_enc c = [b0; b1; b2]) as -> by reflexivity. unfold utf8_enc.
    destruct (N.ltb_spec c 0x80); [exfalso; lia|]. destruct (N.ltb_spec c 0x800); [exfalso; lia|].
    destruct (N.ltb_spec c 0x10000); [|exfalso; lia]. subst c.
    f_equal; [|f_equal; [|f_equal]]; apply byte_of_eq; nlia. }
  destruct l3 as [|b3 l4]; [discriminate|]. cbn [length] in Hl. pose proof (BB b3) as B3.
  match goal with |- context [if ?b then _ else _] => destruct b eqn:K3; [|discriminate] end.
  clear K1 K2. rewrite !andb_true_iff, !orb_true_iff, !andb_true_iff, !cont_iff, !N.leb_le, !N.eqb_eq in K3.
  intros E. apply OM in E as (r & E & ->). apply IH in E as [F ->]; [|lia].
  set (c := ((bN b0 - 240) * 262144 + (bN b1 - 128) * 4096 + (bN b2 - 128) * 64 + (bN b3 - 128))%N).
  assert (scalar_value c /\ 0x10000 <= c)%N as [Hs Hr] by (unfold scalar_value, c; lia).
  split; [constructor; assumption|].
  cbn [flat_map]. enough (utf8_enc c = [b0; b1; b2; b3]) as -> by reflexivity. unfold utf8_enc.
  destruct (N.ltb_spec c 0x80); [exfalso; lia|]. destruct (N.ltb_spec c 0x800); [exfalso; lia|].
  destruct (N.ltb_spec c 0x10000); [exfalso; lia|]. subst c.
  f_equal; [|f_equal; [|f_equal; [|f_equal]]]; apply byte_of_eq; nlia.
Qed.

(** Decoding and encoding are inverse. *)
Theorem utf8_chars_iff l cs : utf8_chars l = Some cs <-> Forall scalar_value cs /\ l = flat_map utf8_enc cs.
Proof.
  split.
  - now apply (@utf8_chars_sound (length l)).
  - intros [F ->]. now apply utf8_chars_complete.
Qed.
