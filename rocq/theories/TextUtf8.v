(** * JSON texts are UTF-8 *)
From Verif Require Import Base Json JsonFacts Utf8 JsonText.

Set Implicit Arguments.
Local Open Scope list_scope.

Definition utf8 (l : list byte) : Prop := exists cs, Forall scalar_value cs /\ l = flat_map utf8_enc cs.

Lemma utf8_iff l : utf8_valid l = true <-> utf8 l.
Proof.
  unfold utf8_valid. split.
  - destruct (utf8_chars l) as [cs|] eqn:E; [|discriminate]. intros _. exists cs. now apply utf8_chars_iff.
  - intros (cs & H). apply utf8_chars_iff in H. now rewrite H.
Qed.

Lemma utf8_nil : utf8 [].
Proof. now exists []. Qed.
Lemma utf8_app a b : utf8 a -> utf8 b -> utf8 (a ++ b).
Proof.
  intros (ca & Fa & ->) (cb & Fb & ->). exists (ca ++ cb). split; [apply Forall_app; now split|]. now rewrite flat_map_app.
Qed.
Lemma utf8_ascii1 b : (bN b < 128)%N -> utf8 [b].
Proof.
  intros H. exists [bN b]. split; [constructor; [unfold scalar_value; lia|constructor]|].
  cbn [flat_map]. unfold utf8_enc. destruct (N.ltb_spec (bN b) 0x80); [|lia]. cbn [app]. now rewrite byte_of_bN.
Qed.
Lemma utf8_ascii l : Forall (fun b => bN b < 128)%N l -> utf8 l.
Proof.
  induction 1 as [|b r H _ IH]; [apply utf8_nil|]. change (b :: r) with ([b] ++ r). apply utf8_app; [now apply utf8_ascii1|exact IH].
Qed.
Lemma utf8_cons b l : (bN b < 128)%N -> utf8 l -> utf8 (b :: l).
Proof. intros H U. change (b :: l) with ([b] ++ l). apply utf8_app; [now apply utf8_ascii1|exact U]. Qed.

Lemma hex_ascii n : (n < 16)%N -> (bN (hex n) < 128)%N.
Proof. intros H. unfold hex. destruct (N.ltb_spec n 10); rewrite bN_small; lia. Qed.

Lemma esc_ascii b : (bN b < 128)%N -> Forall (fun b => bN b < 128)%N (esc b).
Proof.
  intros H. destruct b; try (cbn in H; lia); vm_compute; repeat constructor.
Qed.
Lemma esc_high b : (128 <= bN b)%N -> esc b = [b].
Proof. intros H. destruct b; try reflexivity; exfalso; apply H; reflexivity. Qed.

Lemma enc_high c : (128 <= c)%N -> scalar_value c -> Forall (fun b => 128 <= bN b)%N (utf8_enc c).
Proof.
  intros H SV. assert (B : (c < 0x110000)%N) by (unfold scalar_value in SV; lia). unfold utf8_enc.
  destruct (N.ltb_spec c 0x80); [lia|].
  destruct (N.ltb_spec c 0x800).
  { repeat constructor; rewrite bN_small; nlia. }
  destruct (N.ltb_spec c 0x10000).
  { repeat constructor; rewrite bN_small; nlia. }
  repeat constructor; rewrite bN_small; nlia.
Qed.
Lemma esc_all_high l : Forall (fun b => 128 <= bN b)%N l -> flat_map esc l = l.
Proof. induction 1 as [|b r H _ IH]; [reflexivity|]. cbn [flat_map]. now rewrite esc_high, IH. Qed.

Lemma esc_utf8 s : utf8 s -> utf8 (flat_map esc s).
Proof.
  intros (cs & F & ->). induction F as [|c cs SV _ IH]; [apply utf8_nil|].
  cbn [flat_map]. rewrite flat_map_app. apply utf8_app; [|exact IH].
  destruct (N.ltb_spec c 128) as [L|G].
  - unfold utf8_enc. destruct (N.ltb_spec c 0x80); [|lia]. cbn [flat_map]. rewrite app_nil_r.
    apply utf8_ascii, esc_ascii. rewrite bN_small; lia.
  - rewrite esc_all_high by now apply enc_high. exists [c]. split; [now constructor|]. cbn [flat_map]. now rewrite app_nil_r.
Qed.
Lemma quoted_utf8 s : utf8 s -> utf8 (quoted s).
Proof.
  intros U. unfold quoted. apply utf8_cons; [reflexivity|]. apply utf8_app; [now apply esc_utf8|]. now apply utf8_ascii1.
Qed.

Lemma dec_aux_ascii f : forall n acc, Forall (fun b => bN b < 128)%N acc -> Forall (fun b => bN b < 128)%N (dec_aux f n acc).
Proof.
  induction f as [|f IH]; intros n acc H; cbn [dec_aux]; [exact H|].
  assert (D : (bN (digit (n mod 10)) < 128)%N).
  { unfold digit. assert (n mod 10 < 10)%N by (apply N.mod_lt; lia). rewrite bN_small; lia. }
  destruct (n <? 10)%N; [now constructor|apply IH; now constructor].
Qed.
Lemma decimal_utf8 n : utf8 (decimal n).
Proof. apply utf8_ascii, dec_aux_ascii. constructor. Qed.

Lemma commas_utf8 l : Forall utf8 l -> utf8 (commas l).
Proof.
  induction 1 as [|x r H F IH]; cbn [commas]; [apply utf8_nil|]. destruct r as [|y r]; [exact H|].
  apply utf8_app; [exact H|]. apply utf8_cons; [reflexivity|exact IH].
Qed.

Lemma text_utf8 fmt : (forall b, utf8_valid (fmt b) = true) -> forall v, wf_raw v = true -> utf8 (text fmt v).
Proof.
  intros HF v. induction v as [|b|n|z|b|s|l IH|l IH] using raw_nested_ind; intros W; cbn [text].
  - apply utf8_ascii. repeat constructor.
  - destruct b; apply utf8_ascii; repeat constructor.
  - apply decimal_utf8.
  - apply utf8_cons; [reflexivity|apply decimal_utf8].
  - apply utf8_iff, HF.
  - apply quoted_utf8, utf8_iff, W.
  - apply utf8_cons; [reflexivity|]. apply utf8_app; [|now apply utf8_ascii1]. apply commas_utf8. cbn [wf_raw] in W.
    rewrite forallb_forall in W. rewrite Forall_forall in IH. apply Forall_forall. intros x H. apply in_map_iff in H.
    destruct H as (y & <- & H). auto.
  - apply utf8_cons; [reflexivity|]. apply utf8_app; [|now apply utf8_ascii1]. apply commas_utf8. cbn [wf_raw] in W.
    apply andb_true_iff in W. destruct W as (_ & W). rewrite forallb_forall in W. rewrite Forall_forall in IH.
    apply Forall_forall. intros x H. apply in_map_iff in H. destruct H as ((k, y) & <- & H). cbn [fst snd].
    specialize (W _ H). cbn [fst snd] in W. apply andb_true_iff in W. destruct W as (W1 & W2).
    apply utf8_app; [apply quoted_utf8; now apply utf8_iff|]. apply utf8_cons; [reflexivity|]. now apply (IH (k, y)).
Qed.

(** serde_json's output is a Rust [String] when the float formatter's is. *)
Theorem to_text_utf8 fmt : (forall b, utf8_valid (fmt b) = true) -> forall v, utf8_valid (to_text fmt v) = true.
Proof. intros HF v. apply utf8_iff. unfold to_text. apply text_utf8; [exact HF|]. apply (proj2_sig v). Qed.
