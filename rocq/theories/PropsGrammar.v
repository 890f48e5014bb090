(** * C65: which texts are JSON values

    A text given to the database (property values sent to the server or typed at
    the command line, and what is stored in RocksDB) is accepted exactly if it is
    JSON by the grammar of JsonGrammar.v nested at most 127 deep, and it means what
    the grammar says. *)
From Coq Require Import Sorting.Sorted.
From Verif Require Import Base OMap Json Types Utf8 MemFacts Proto JsonText JsonGrammar.

Set Implicit Arguments.

Lemma beq_eq a b : beq a b = true <-> a = b.
Proof.
  unfold beq. rewrite N.eqb_eq. split; [|congruence]. intros E.
  rewrite <- (byte_of_bN a), <- (byte_of_bN b). congruence.
Qed.
Lemma beq_neq a b : beq a b = false <-> a <> b.
Proof. rewrite <- beq_eq. destruct (beq a b); split; congruence. Qed.

(** ** White space *)
Lemma ws_blank b : ws b = true <-> In b [x20; x09; x0a; x0d].
Proof. unfold ws. rewrite !orb_true_iff, !beq_eq. cbn. intuition congruence. Qed.
Lemma skip_sound s : exists w, s = w ++ skip s /\ blank w.
Proof.
  induction s as [|b s (w & E & B)]; [exists []; split; [reflexivity|constructor]|]. cbn [skip]. destruct (ws b) eqn:W.
  - exists (b :: w). split; [cbn; congruence|]. constructor; [now apply ws_blank|exact B].
  - exists []. split; [reflexivity|constructor].
Qed.
Lemma skip_blank w s : blank w -> skip (w ++ s) = skip s.
Proof. induction 1 as [|b w B _ IH]; [reflexivity|]. cbn. apply ws_blank in B. now rewrite B. Qed.
Lemma skip_nil s : skip s = [] -> blank s.
Proof. intros E. destruct (skip_sound s) as (w & Ew & B). rewrite E, app_nil_r in Ew. now rewrite Ew. Qed.
Lemma skip_all w : blank w -> skip w = [].
Proof. intros B. rewrite <- (app_nil_r w). now rewrite (skip_blank [] B). Qed.
Lemma skip_to s b r : skip s = b :: r -> exists w, s = w ++ b :: r /\ blank w.
Proof. intros E. destruct (skip_sound s) as (w & Ew & B). rewrite E in Ew. eauto. Qed.

(** ** Strings *)
Lemma hexval_table b n : hexval b = Some n <-> In (b, n) hex_table.
Proof.
  split.
  - destruct b; try discriminate; intros [= <-]; cbn; tauto.
  - cbn [In hex_table]. intros H. repeat (destruct H as [H|H]; [injection H as <- <-; reflexivity|]). destruct H.
Qed.
Lemma hex4_hexes a b c d n : hex4 a b c d = Some n <-> hexes a b c d n.
Proof.
  unfold hex4, hexes. split.
  - destruct (hexval a) as [n1|] eqn:A; [|discriminate]. destruct (hexval b) as [n2|] eqn:B; [|discriminate].
    destruct (hexval c) as [n3|] eqn:C; [|discriminate]. destruct (hexval d) as [n4|] eqn:D; [|discriminate]. intros [= <-].
    exists n1, n2, n3, n4. rewrite <- !hexval_table. conj; try assumption. lia.
  - intros (n1 & n2 & n3 & n4 & A & B & C & D & ->). apply hexval_table in A, B, C, D. rewrite A, B, C, D. f_equal. lia.
Qed.
Lemma unesc_table c s : unesc c = Some s <-> In (c, s) escapes.
Proof.
  split.
  - destruct c; try discriminate; intros [= <-]; cbn; tauto.
  - cbn [In escapes]. intros H. repeat (destruct H as [H|H]; [injection H as <- <-; reflexivity|]). destruct H.
Qed.
Lemma also_also a b o : also a (also b o) = also (a ++ b) o.
Proof. destruct o as [[s r]|]; [|reflexivity]. cbn. now rewrite app_assoc. Qed.

Lemma piece_chars t s r : piece t s -> chars (t ++ r) = also s (chars r).
Proof.
  intros P. destruct P as [b L N1 N2|c s I|a b c d n Hx Ns|a b c d a' b' c' d' n R H1 H2].
  - cbn [app chars]. rewrite (proj2 (beq_neq _ _) N1), (proj2 (beq_neq _ _) N2). destruct (N.ltb_spec (bN b) 32); [lia|reflexivity].
  - cbn [app chars]. change (beq x5c x22) with false. change (beq x5c x5c) with true. cbn match.
    assert (beq c x75 = false) as -> by (cbn [In escapes] in I; repeat (destruct I as [I|I]; [injection I as <- <-; reflexivity|]); destruct I).
    apply unesc_table in I. now rewrite I.
  - cbn [app chars]. change (beq x5c x22) with false. change (beq x5c x5c) with true. change (beq x75 x75) with true. cbn match.
    apply hex4_hexes in Hx. rewrite Hx.
    destruct ((0xD800 <=? n)%N && (n <=? 0xDBFF)%N) eqn:E1; [apply andb_true_iff in E1 as [X Y]; apply N.leb_le in X, Y; lia|].
    destruct ((0xDC00 <=? n)%N && (n <=? 0xDFFF)%N) eqn:E2; [apply andb_true_iff in E2 as [X Y]; apply N.leb_le in X, Y; lia|]. reflexivity.
  - cbn [app chars]. change (beq x5c x22) with false. change (beq x5c x5c) with true. change (beq x75 x75) with true. cbn match.
    apply hex4_hexes in H1, H2. rewrite H1.
    assert ((n - 0x10000) / 1024 < 1024)%N as D1 by (apply N.div_lt_upper_bound; lia).
    assert ((n - 0x10000) mod 1024 < 1024)%N as D2 by (apply N.mod_lt; lia).
    pose proof (N.div_mod (n - 0x10000) 1024 ltac:(lia)) as DM.
    set (q := ((n - 0x10000) / 1024)%N) in *. set (m := ((n - 0x10000) mod 1024)%N) in *. clearbody q m.
    destruct (N.leb_spec 0xD800 (0xD800 + q)) as [_|X]; [|lia]. destruct (N.leb_spec (0xD800 + q) 0xDBFF) as [_|X]; [|lia]. cbn [andb].
    rewrite H2. destruct (N.leb_spec 0xDC00 (0xDC00 + m)) as [_|X]; [|lia]. destruct (N.leb_spec (0xDC00 + m) 0xDFFF) as [_|X]; [|lia]. cbn [andb].
    do 2 f_equal. lia.
Qed.
Lemma pieces_chars t s r : pieces t s -> chars (t ++ x22 :: r) = Some (s, r).
Proof.
  induction 1 as [|t s t' s' P _ IH]; [reflexivity|]. rewrite <- app_assoc, (piece_chars _ P), IH. reflexivity.
Qed.
Lemma chars_pieces k : forall s t r, length s <= k -> chars s = Some (t, r) -> exists w, s = w ++ x22 :: r /\ pieces w t.
Proof.
  induction k as [|k IH]; intros s t r L E; [destruct s; [discriminate|cbn in L; lia]|].
  assert (forall p q s', piece p q -> s = p ++ s' -> length s' < length s -> also q (chars s') = Some (t, r) -> exists w, s = w ++ x22 :: r /\ pieces w t) as Al.
  { intros p q s' P Es L' A. destruct (chars s') as [[t' r']|] eqn:C; [|discriminate]. cbn in A. injection A as <- <-.
    apply IH in C as (w & -> & W); [|lia]. exists (p ++ w). split; [now rewrite Es, app_assoc|now constructor]. }
  destruct s as [|b s1]; [discriminate|]. cbn [chars] in E. destruct (beq b x22) eqn:B1.
  { injection E as <- <-. apply beq_eq in B1 as ->. exists []. split; [reflexivity|constructor]. }
  apply beq_neq in B1. destruct (beq b x5c) eqn:B2.
  2:{ apply beq_neq in B2. destruct (N.ltb_spec (bN b) 32) as [|G]; [discriminate|]. refine (Al [b] [b] s1 _ eq_refl _ E); [now constructor|cbn; lia]. }
  apply beq_eq in B2 as ->. destruct s1 as [|c s2]; [discriminate|]. destruct (beq c x75) eqn:B3.
  2:{ destruct (unesc c) as [x|] eqn:U; [|discriminate]. apply unesc_table in U. refine (Al [x5c; c] [x] s2 _ eq_refl _ E); [now constructor|cbn; lia]. }
  apply beq_eq in B3 as ->. destruct s2 as [|h1 [|h2 [|h3 [|h4 s3]]]]; try discriminate.
  destruct (hex4 h1 h2 h3 h4) as [n|] eqn:Hn; [|discriminate]. apply hex4_hexes in Hn.
  destruct ((0xD800 <=? n)%N && (n <=? 0xDBFF)%N) eqn:R1.
  - apply andb_true_iff in R1 as [L1 L2]. apply N.leb_le in L1, L2.
    destruct s3 as [|b1 [|b2 [|g1 [|g2 [|g3 [|g4 s4]]]]]]; try discriminate.
    destruct (beq b1 x5c && beq b2 x75) eqn:B4; [|discriminate]. apply andb_true_iff in B4 as [B4 B5]. apply beq_eq in B4 as ->. apply beq_eq in B5 as ->.
    destruct (hex4 g1 g2 g3 g4) as [m|] eqn:Hm; [|discriminate]. apply hex4_hexes in Hm.
    destruct ((0xDC00 <=? m)%N && (m <=? 0xDFFF)%N) eqn:R2; [|discriminate]. apply andb_true_iff in R2 as [L3 L4]. apply N.leb_le in L3, L4.
    refine (Al [x5c; x75; h1; h2; h3; h4; x5c; x75; g1; g2; g3; g4] _ s4 _ eq_refl _ E); [|cbn; lia].
    set (c := (0x10000 + (n - 0xD800) * 1024 + (m - 0xDC00))%N).
    assert ((c - 0x10000) / 1024 = n - 0xD800 /\ (c - 0x10000) mod 1024 = m - 0xDC00)%N as [Q M].
    { replace (c - 0x10000)%N with ((m - 0xDC00) + (n - 0xD800) * 1024)%N by (unfold c; lia).
      rewrite N.div_add, N.mod_add, N.div_small, N.mod_small by lia. split; lia. }
    constructor; [unfold c; lia|rewrite Q|rewrite M].
    + now replace (0xD800 + (n - 0xD800))%N with n by lia.
    + now replace (0xDC00 + (m - 0xDC00))%N with m by lia.
  - destruct ((0xDC00 <=? n)%N && (n <=? 0xDFFF)%N) eqn:R2; [discriminate|].
    refine (Al [x5c; x75; h1; h2; h3; h4] _ s3 _ eq_refl _ E); [|cbn; lia]. constructor; [exact Hn|].
    destruct (N.ltb_spec n 0xD800) as [|G]; [now left|right]. destruct (N.leb_spec n 0xDFFF) as [G2|]; [|lia].
    apply andb_false_iff in R1, R2. rewrite !N.leb_gt in R1, R2. lia.
Qed.
Lemma string_complete t s r : string_text t s -> exists t1, t ++ r = x22 :: t1 /\ string t1 = Some (s, r).
Proof.
  intros (t' & -> & P & U). exists (t' ++ x22 :: r). split; [cbn; now rewrite <- app_assoc|]. unfold string. now rewrite (pieces_chars _ P), U.
Qed.
Lemma string_sound s t r : string s = Some (t, r) -> exists w, x22 :: s = w ++ r /\ string_text w t.
Proof.
  unfold string. destruct (chars s) as [[t' r']|] eqn:C; [|discriminate]. destruct (utf8_valid t') eqn:U; [|discriminate]. intros [= <- <-].
  apply (@chars_pieces (length s) s t' r' (le_n _)) in C as (w & -> & P). exists (x22 :: w ++ [x22]). split; [cbn; now rewrite <- app_assoc|]. now exists w.
Qed.

(** ** Numbers *)
Lemma is_digit_char b : is_digit b = true <-> digit_char b.
Proof.
  split.
  - destruct b; intros D; try discriminate D; cbn; tauto.
  - unfold digit_char. cbn [In]. intros H. repeat (destruct H as [H|H]; [subst; reflexivity|]). destruct H.
Qed.
Lemma digits_sound s : forall d r, digits s = (d, r) -> s = d ++ r /\ forallb is_digit d = true /\ match r with b :: _ => is_digit b = false | [] => True end.
Proof.
  induction s as [|b s IH]; intros d r E; cbn [digits] in E; [injection E as <- <-; now cbn|].
  destruct (is_digit b) eqn:D; [|injection E as <- <-; now cbn]. destruct (digits s) as [d' r'] eqn:E'. injection E as <- <-.
  destruct (IH d' r' eq_refl) as (-> & F & N). cbn. now rewrite D, F.
Qed.
Lemma forallb_digits d : forallb is_digit d = true <-> Forall digit_char d.
Proof. rewrite forallb_forall, Forall_forall. split; intros F x Hx; apply is_digit_char, F, Hx. Qed.

(** Digits without a leading zero are determined by their value. *)
Lemma value_snoc d x : value_of (d ++ [x]) = (value_of d * 10 + (bN x - 48))%N.
Proof. unfold value_of. now rewrite fold_left_app. Qed.
Lemma digit_range b : is_digit b = true -> (48 <= bN b <= 57)%N.
Proof. unfold is_digit. intros D. apply andb_true_iff in D as [A B]. apply N.leb_le in A, B. lia. Qed.
Definition nonzero_start (d : list byte) : Prop := match d with z :: _ => beq z x30 = false | [] => True end.
Lemma value_pos z d : forallb is_digit (z :: d) = true -> beq z x30 = false -> (0 < value_of (z :: d))%N.
Proof.
  revert z. induction d as [|x d IH] using rev_ind; intros z D N.
  - cbn in D. rewrite andb_true_r in D. apply digit_range in D. unfold value_of. cbn. apply beq_neq in N.
    assert (bN z <> 48%N) by (intros E; apply N; rewrite <- (byte_of_bN z), E; reflexivity). lia.
  - change (z :: d ++ [x]) with ((z :: d) ++ [x]). rewrite value_snoc.
    change (z :: d ++ [x]) with ((z :: d) ++ [x]) in D. rewrite forallb_app in D. apply andb_true_iff in D as [D _]. specialize (IH z D N). lia.
Qed.
Lemma value_inj d : forall d', forallb is_digit d = true -> forallb is_digit d' = true -> nonzero_start d -> nonzero_start d' -> value_of d = value_of d' -> d = d'.
Proof.
  induction d as [|x d IH] using rev_ind; intros d' D D' Z Z' E.
  - destruct d' as [|z d']; [reflexivity|]. pose proof (value_pos z d' D' Z') as P. rewrite <- E in P. unfold value_of in P. cbn in P. lia.
  - destruct d' as [|y d' _] using rev_ind.
    + destruct d as [|z d]; cbn [app] in *; [pose proof (value_pos x [] D Z) as P|pose proof (value_pos z (d ++ [x]) D Z) as P]; rewrite E in P; unfold value_of in P; cbn in P; lia.
    + rewrite !value_snoc in E. rewrite forallb_app in D, D'. apply andb_true_iff in D as [D Dx]. apply andb_true_iff in D' as [D' Dy].
      cbn in Dx, Dy. rewrite andb_true_r in Dx, Dy. apply digit_range in Dx, Dy.
      assert (bN x = bN y /\ value_of d = value_of d') as [Exy Ed] by lia.
      assert (x = y) as -> by (rewrite <- (byte_of_bN x), <- (byte_of_bN y); congruence). f_equal.
      apply IH; auto; [destruct d|destruct d']; cbn in *; auto.
Qed.
Lemma decimal_value z ds : forallb is_digit (z :: ds) = true -> (beq z x30 && negb match ds with [] => true | _ => false end)%bool = false ->
  decimal (value_of (z :: ds)) = z :: ds.
Proof.
  intros D N. destruct (decimal_spec (fun _ => []) (fun _ => None) (value_of (z :: ds))) as (y & es & E & D' & V & Z). rewrite E.
  destruct (beq z x30) eqn:Bz.
  - destruct ds as [|? ?]; [|discriminate N]. apply beq_eq in Bz as ->. change (value_of [x30]) with 0%N in *.
    destruct (beq y x30) eqn:By; [apply beq_eq in By as ->; now destruct (Z eq_refl) as [-> _]|].
    pose proof (value_pos y es D' By). lia.
  - destruct (beq y x30) eqn:By.
    + destruct (Z eq_refl) as [_ V0]. pose proof (value_pos z ds D Bz). lia.
    + apply value_inj; auto.
Qed.

Lemma fraction_sound s fr r : fraction s = Some (fr, r) -> s = fr ++ r /\ fraction_text fr.
Proof.
  unfold fraction. destruct s as [|b s]; [intros [= <- <-]; split; [reflexivity|now left]|]. destruct (beq b x2e) eqn:B; [|intros [= <- <-]; split; [reflexivity|now left]].
  apply beq_eq in B as ->. destruct (digits s) as [d r'] eqn:D. apply digits_sound in D as (-> & F & _). destruct d as [|z d]; [discriminate|].
  intros [= <- <-]. split; [reflexivity|]. right. exists (z :: d). split; [reflexivity|]. split; [discriminate|]. now apply forallb_digits.
Qed.
Lemma exponent_sound s ex r : exponent s = Some (ex, r) -> s = ex ++ r /\ exponent_text ex.
Proof.
  unfold exponent. destruct s as [|b s]; [intros [= <- <-]; split; [reflexivity|now left]|]. destruct (beq b x65 || beq b x45) eqn:B; [|intros [= <- <-]; split; [reflexivity|now left]].
  assert (In b [x65; x45]) as Ib by (apply orb_true_iff in B; rewrite !beq_eq in B; cbn; intuition congruence).
  assert (exists sg s1, match s with c :: r1 => if beq c x2b || beq c x2d then ([c], r1) else ([], s) | [] => ([], s) end = (sg, s1) /\ s = sg ++ s1 /\ In sg [[]; [x2b]; [x2d]]) as (sg & s1 & -> & -> & Is).
  { destruct s as [|c r1]; [exists [], []; cbn; tauto|]. destruct (beq c x2b || beq c x2d) eqn:C; [|exists [], (c :: r1); cbn; tauto].
    exists [c], r1. split; [reflexivity|]. split; [reflexivity|]. apply orb_true_iff in C. rewrite !beq_eq in C. destruct C as [->| ->]; cbn; tauto. }
  destruct (digits s1) as [d r2] eqn:D. apply digits_sound in D as (-> & F & _). destruct d as [|z d]; [discriminate|].
  intros [= <- <-]. split; [cbn; now rewrite <- app_assoc|]. right. exists b, sg, (z :: d). conj; try reflexivity; try assumption; [discriminate|]. now apply forallb_digits.
Qed.

Section Read.
  Variable fread : list byte -> option N.
  Notation value := (value fread). Notation elements := (elements fread). Notation members := (members fread).
  Notation number := (number fread). Notation means := (means fread). Notation items := (items fread). Notation pairs := (pairs fread).

  Lemma number_sound s v r : number s = Some (v, r) -> exists t, s = t ++ r /\ number_text fread t v.
  Proof.
    unfold JsonText.number.
    assert (exists sg s1, s = sg ++ s1 /\ In sg [[]; [x2d]] /\
      match s with b :: r => if beq b x2d then (true, r) else (false, s) | [] => (false, s) end = (match sg with [] => false | _ => true end, s1)) as (sg & s1 & Es & Is & ->).
    { destruct s as [|b s]; [exists [], []; cbn; tauto|]. destruct (beq b x2d) eqn:B; [|exists [], (b :: s); cbn; tauto].
      apply beq_eq in B as ->. exists [x2d], s. cbn. tauto. }
    destruct (digits s1) as [d s2] eqn:D. apply digits_sound in D as (E1 & F & _). destruct d as [|z more]; [discriminate|].
    destruct (beq z x30 && _)%bool eqn:Z; [discriminate|].
    destruct (fraction s2) as [[fr s3]|] eqn:Fr; [|discriminate]. apply fraction_sound in Fr as [E2 Tf].
    destruct (exponent s3) as [[ex s4]|] eqn:Ex; [|discriminate]. apply exponent_sound in Ex as [E3 Te].
    pose proof (decimal_value z more F Z) as Dv. set (n := value_of (z :: more)) in *.
    assert ((if match sg with [] => false | _ => true end then [x2d] else []) = sg) as Esg by (destruct Is as [<-|[<-|[]]]; reflexivity).
    cbv zeta. rewrite Esg, <- Dv. clearbody n.
    assert (s = (sg ++ decimal n ++ fr ++ ex) ++ s4) as Full by (rewrite Es, E1, <- Dv, E2, E3, !app_assoc; reflexivity).
    assert (forall t, t = sg ++ decimal n ++ fr ++ ex -> (fr = [] -> ex = [] -> match sg with [] => 2 ^ 64 <= n | _ => n = 0 \/ 2 ^ 63 < n end)%N ->
      floating fread t s4 = Some (v, r) -> exists t, s = t ++ r /\ number_text fread t v) as Fl.
    { intros t -> C X. unfold floating in X. destruct (fread _) as [b|] eqn:Fb; [|discriminate]. injection X as <- <-.
      eexists. split; [exact Full|]. now constructor. }
    destruct fr as [|f fr]; [destruct ex as [|e ex]|].
    2, 3: apply Fl; [reflexivity|discriminate].
    { rewrite !app_nil_r in Full. destruct Is as [<-|[<-|[]]]; cbn [app] in *.
      - destruct (N.ltb_spec n (2 ^ 64)) as [L|G].
        + intros [= <- <-]. exists (decimal n). split; [exact Full|]. now constructor.
        + apply Fl; [reflexivity|]. intros _ _. exact G.
      - destruct ((0 <? n)%N && (n <=? 2 ^ 63)%N) eqn:B.
        + apply andb_true_iff in B as [B1 B2]. apply N.ltb_lt in B1. apply N.leb_le in B2. intros [= <- <-]. exists (x2d :: decimal n). split; [exact Full|]. now constructor.
        + apply Fl; [reflexivity|]. intros _ _. apply andb_false_iff in B. rewrite N.ltb_ge, N.leb_gt in B. lia. }
  Qed.

  Lemma fraction_complete fr r : fraction_text fr -> (match r with b :: _ => is_digit b = false /\ beq b x2e = false | [] => True end) -> fraction (fr ++ r) = Some (fr, r).
  Proof.
    intros [->|(d & -> & Nd & F)] St.
    - destruct r as [|b r]; [reflexivity|]. cbn. now rewrite (proj2 St).
    - cbn [app fraction]. rewrite beq_refl. apply forallb_digits in F. rewrite digits_app; [destruct d; [now destruct Nd|reflexivity]|exact F|]. destruct r; [exact I|apply St].
  Qed.
  Lemma exponent_complete ex r : exponent_text ex -> stops r -> exponent (ex ++ r) = Some (ex, r).
  Proof.
    intros [->|(e & sg & d & -> & Ie & Is & Nd & F)] St; [now apply no_exponent|].
    cbn [app exponent]. assert (beq e x65 || beq e x45 = true)%bool as -> by (destruct Ie as [<-|[<-|[]]]; reflexivity).
    apply forallb_digits in F. destruct d as [|z d]; [now destruct Nd|].
    assert (is_digit z = true) as Dz by (cbn in F; now apply andb_true_iff in F).
    assert (match (sg ++ z :: d) ++ r with c :: r1 => if beq c x2b || beq c x2d then ([c], r1) else ([], (sg ++ z :: d) ++ r) | [] => ([], (sg ++ z :: d) ++ r) end = (sg, (z :: d) ++ r)) as ->.
    { destruct Is as [<-|[<-|[<-|[]]]]; cbn [app]; [|reflexivity|reflexivity].
      rewrite (digit_not_minus _ Dz). assert (beq z x2b = false) as -> by (destruct z; try reflexivity; discriminate Dz). reflexivity. }
    rewrite digits_app; [reflexivity|exact F|]. destruct r; [exact I|apply St].
  Qed.

  Lemma number_complete t v r : number_text fread t v -> stops r -> number (t ++ r) = Some (v, r).
  Proof.
    intros Nt St. destruct Nt as [n L|n L|sg n fr ex b Is Tf Te C Fb].
    - now apply (number_pos (fun _ => [])).
    - pose proof (@number_neg (fun _ => []) fread (- Z.of_N n)%Z r) as X. replace (Z.to_N (- - Z.of_N n)) with n in X by lia. apply X; [lia|exact St].
    - destruct (decimal_spec (fun _ => []) fread n) as (z & ds & E & D & V & Z0).
      assert (is_digit z = true) as Dz by (cbn in D; now apply andb_true_iff in D).
      unfold JsonText.number. rewrite <- !app_assoc.
      assert (match sg ++ decimal n ++ fr ++ ex ++ r with b :: r0 => if beq b x2d then (true, r0) else (false, sg ++ decimal n ++ fr ++ ex ++ r) | [] => (false, sg ++ decimal n ++ fr ++ ex ++ r) end
              = (match sg with [] => false | _ => true end, decimal n ++ fr ++ ex ++ r)) as ->.
      { destruct Is as [<-|[<-|[]]]; [|reflexivity]. rewrite E. cbn [app]. now rewrite (digit_not_minus _ Dz). }
      assert (match fr ++ ex ++ r with b :: _ => is_digit b = false | [] => True end) as S1.
      { destruct Tf as [->|(d & -> & _)]; [|reflexivity]. cbn [app]. destruct Te as [->|(e & sg' & d & -> & Ie & _)]; [cbn [app]; now apply (stops_digit fread)|].
        destruct Ie as [<-|[<-|[]]]; reflexivity. }
      assert (match ex ++ r with b :: _ => is_digit b = false /\ beq b x2e = false | [] => True end) as S2.
      { destruct Te as [->|(e & sg' & d & -> & Ie & _)]; [cbn [app]; destruct r; [exact I|]; destruct St as (A & B & _); auto|].
        destruct Ie as [<-|[<-|[]]]; split; reflexivity. }
      rewrite E in *. rewrite (digits_app (z :: ds) _ D S1).
      assert (beq z x30 && negb match ds with [] => true | _ :: _ => false end = false) as ->.
      { destruct (beq z x30); [|reflexivity]. destruct (Z0 eq_refl) as [-> _]. reflexivity. }
      rewrite (fraction_complete _ Tf S2), (exponent_complete _ Te St). rewrite V.
      assert ((if match sg with [] => false | _ => true end then [x2d] else []) = sg) as Esg by (destruct Is as [<-|[<-|[]]]; reflexivity).
      cbv zeta. rewrite Esg. assert (floating fread (sg ++ (z :: ds) ++ fr ++ ex) r = Some (RFlt b, r)) as Fl by (unfold floating; now rewrite Fb).
      destruct fr as [|f fr]; [destruct ex as [|e ex]|]; [|exact Fl|exact Fl].
      specialize (C eq_refl eq_refl). destruct Is as [<-|[<-|[]]].
      + destruct (N.ltb_spec n (2 ^ 64)); [lia|exact Fl].
      + destruct ((0 <? n)%N && (n <=? 2 ^ 63)%N) eqn:B; [|exact Fl]. apply andb_true_iff in B as [B1 B2]. apply N.ltb_lt in B1. apply N.leb_le in B2. lia.
  Qed.

  (** ** Objects *)
  Lemma lookup_put k v l k' : lookup k' (put k v l) = if eqb k' k then Some v else lookup k' l.
  Proof.
    induction l as [|[k1 v1] l IH]; cbn [put lookup]; [reflexivity|]. destruct (cmp k k1) eqn:C; cbn [lookup].
    - apply cmp_eq in C as ->. now destruct (eqb k' k1).
    - reflexivity.
    - rewrite IH. destruct (eqb k' k1) eqn:E1; [|reflexivity]. apply eqb_eq in E1 as ->.
      destruct (eqb k1 k) eqn:E2; [|reflexivity]. apply eqb_eq in E2 as ->. rewrite cmp_refl in C. discriminate.
  Qed.
  Lemma lookup_app k l l' : lookup k (l ++ l') = match lookup k l with Some v => Some v | None => lookup k l' end.
  Proof. induction l as [|[k1 v1] l IH]; cbn; [reflexivity|]. now destruct (eqb k k1). Qed.
  Lemma asc_sorted (l : list (list byte)) : keys_ascb l = true -> StronglySorted (fun a b => cmp a b = Lt) l.
  Proof.
    intros A. apply Sorted_StronglySorted; [intros x y z; apply cmp_lt_trans|].
    induction l as [|x l IH]; [constructor|]. cbn [keys_ascb] in A. destruct l as [|y l]; [repeat constructor|].
    apply andb_true_iff in A as [A1 A2]. constructor; [now apply IH|]. constructor. unfold ltb in A1. now destruct (cmp x y).
  Qed.
  Lemma map_of_wins l : last_wins l (map_of l).
  Proof.
    unfold map_of. assert (forall m, keys_ascb (map fst m) = true ->
      keys_ascb (map fst (fold_left (fun m kv => put (fst kv) (snd kv) m) l m)) = true /\
      forall k, lookup k (fold_left (fun m kv => put (fst kv) (snd kv) m) l m) = match lookup k (rev l) with Some v => Some v | None => lookup k m end) as G.
    { induction l as [|[k1 v1] l IH]; intros m A; cbn [fold_left fst snd rev]; [auto|].
      destruct (IH (put k1 v1 m) (@put_keys k1 v1 m A)) as [IA IL]. split; [exact IA|]. intros k. rewrite IL, lookup_app, lookup_put. cbn [lookup].
      destruct (lookup k (rev l)); [reflexivity|]. now destruct (eqb k k1). }
    destruct (G [] eq_refl) as [A L]. split; [now apply asc_sorted|]. intros k. rewrite L. now destruct (lookup k (rev l)).
  Qed.
  Lemma lookup_none k l : Forall (fun k' => cmp k k' = Lt) (map fst l) -> lookup k l = None.
  Proof.
    induction l as [|[k1 v1] l IH]; intros F; [reflexivity|]. cbn [map fst] in F. apply Forall_cons_iff in F as [F1 F2]. cbn [lookup].
    destruct (eqb k k1) eqn:E; [apply eqb_eq in E as ->; rewrite cmp_refl in F1; discriminate|auto].
  Qed.
  Lemma sorted_same l : forall l', StronglySorted (fun a b => cmp a b = Lt) (map fst l) -> StronglySorted (fun a b => cmp a b = Lt) (map fst l') ->
    (forall k, lookup k l = lookup k l') -> l = l'.
  Proof.
    induction l as [|[k v] l IH]; intros [|[k' v'] l'] Sl Sl' E; cbn [map fst] in *.
    - reflexivity.
    - specialize (E k'). cbn [lookup] in E. rewrite eqb_refl in E. discriminate.
    - specialize (E k). cbn [lookup] in E. rewrite eqb_refl in E. discriminate.
    - apply StronglySorted_inv in Sl as [Sl Fl]. apply StronglySorted_inv in Sl' as [Sl' Fl'].
      assert (forall a b : list byte, cmp a b = Lt -> forall x, Forall (fun k => cmp b k = Lt) x -> Forall (fun k => cmp a k = Lt) x) as Tr
        by (intros a b L x F; eapply Forall_impl; [|exact F]; intros c; now apply cmp_lt_trans).
      destruct (cmp k k') eqn:C.
      + apply cmp_eq in C as ->. pose proof (E k') as E0. cbn [lookup] in E0. rewrite eqb_refl in E0. injection E0 as ->. f_equal.
        apply IH; auto. intros k1. specialize (E k1). cbn [lookup] in E. destruct (eqb k1 k') eqn:Ek; [|exact E].
        apply eqb_eq in Ek as ->. now rewrite !lookup_none.
      + specialize (E k). cbn [lookup] in E. rewrite eqb_refl in E. destruct (eqb k k') eqn:Ek; [apply eqb_eq in Ek as ->; rewrite cmp_refl in C; discriminate|].
        rewrite lookup_none in E; [discriminate|]. eapply Tr; [exact C|exact Fl'].
      + assert (cmp k' k = Lt) as C' by (rewrite cmp_antisym, C; reflexivity).
        specialize (E k'). cbn [lookup] in E. rewrite eqb_refl in E. destruct (eqb k' k) eqn:Ek; [apply eqb_eq in Ek as ->; rewrite cmp_refl in C; discriminate|].
        rewrite lookup_none in E; [discriminate|]. eapply Tr; [exact C'|exact Fl].
  Qed.
  Lemma wins_map_of l m : last_wins l m -> m = map_of l.
  Proof.
    intros [Sm Lm]. destruct (map_of_wins l) as [Sl Ll]. apply sorted_same; auto. intros k. now rewrite Lm, Ll.
  Qed.

  (** The reader, unfolded once. *)
  Lemma value_S f d s : value (S f) d s =
      match skip s with
      | [] => None
      | b :: r =>
        if beq b x6e then word [x75; x6c; x6c] r RNull
        else if beq b x74 then word [x72; x75; x65] r (RBool true)
        else if beq b x66 then word [x61; x6c; x73; x65] r (RBool false)
        else if beq b x22 then match string r with Some (t, r') => Some (RStr t, r') | None => None end
        else if beq b x5b then
          if (d <=? 1)%nat then None else
          match skip r with
          | [] => None
          | c :: r1 => if beq c x5d then Some (RArr [], r1)
                       else match elements f (pred d) r with Some (l, r2) => Some (RArr l, r2) | None => None end
          end
        else if beq b x7b then
          if (d <=? 1)%nat then None else
          match skip r with
          | [] => None
          | c :: r1 => if beq c x7d then Some (RObj [], r1)
                       else match members f (pred d) r with Some (l, r2) => Some (RObj (map_of l), r2) | None => None end
          end
        else if beq b x2d || is_digit b then number (b :: r)
        else None
      end.
  Proof. reflexivity. Qed.
  Lemma elements_S f d s : elements (S f) d s =
      match value f d s with
      | None => None
      | Some (v, r) =>
        match skip r with
        | [] => None
        | c :: r1 =>
          if beq c x5d then Some ([v], r1)
          else if beq c x2c then match elements f d r1 with Some (l, r2) => Some (v :: l, r2) | None => None end
          else None
        end
      end.
  Proof. reflexivity. Qed.
  Lemma members_S f d s : members (S f) d s =
      match skip s with
      | [] => None
      | q :: r0 =>
        if beq q x22 then
          match string r0 with
          | None => None
          | Some (k, r) =>
            match skip r with
            | [] => None
            | c :: r1 =>
              if beq c x3a then
                match value f d r1 with
                | None => None
                | Some (v, r2) =>
                  match skip r2 with
                  | [] => None
                  | c2 :: r3 =>
                    if beq c2 x7d then Some ([(k, v)], r3)
                    else if beq c2 x2c then match members f d r3 with Some (l, r4) => Some ((k, v) :: l, r4) | None => None end
                    else None
                  end
                end
              else None
            end
          end
        else None
      end.
  Proof. reflexivity. Qed.

  (** ** What is read is in the grammar *)
  Lemma lit_sound w : forall s r, lit w s = Some r -> s = w ++ r.
  Proof.
    induction w as [|x w IH]; intros s r E; cbn in E; [now injection E as ->|]. destruct s as [|y s]; [discriminate|].
    destruct (beq x y) eqn:B; [|discriminate]. apply beq_eq in B as ->. apply IH in E as ->. reflexivity.
  Qed.
  Lemma reading_sound f :
    (forall d s v r, value f d s = Some (v, r) -> exists w t, s = w ++ t ++ r /\ blank w /\ means (pred d) t v) /\
    (forall d s l r, elements f d s = Some (l, r) -> exists t, s = t ++ x5d :: r /\ items (pred d) t l) /\
    (forall d s l r, members f d s = Some (l, r) -> exists t, s = t ++ x7d :: r /\ pairs (pred d) t l).
  Proof.
    induction f as [|f (IV & IE & IM)]; [conj; discriminate|]. conj.
    - intros d s v r E. rewrite value_S in E. destruct (skip s) as [|b s1] eqn:Es; [discriminate|]. apply skip_to in Es as (w & -> & Bw).
      assert (forall u x, word u s1 x = Some (v, r) -> means (pred d) (b :: u) x -> exists w0 t, w ++ b :: s1 = w0 ++ t ++ r /\ blank w0 /\ means (pred d) t v) as Wd.
      { intros u x X M. unfold word in X. destruct (lit u s1) as [r'|] eqn:L; [|discriminate]. injection X as <- <-. apply lit_sound in L as ->.
        exists w, (b :: u). auto. }
      destruct (beq b x6e) eqn:B1; [apply beq_eq in B1 as ->; apply (Wd _ _ E); constructor|].
      destruct (beq b x74) eqn:B2; [apply beq_eq in B2 as ->; apply (Wd _ _ E); constructor|].
      destruct (beq b x66) eqn:B3; [apply beq_eq in B3 as ->; apply (Wd _ _ E); constructor|]. clear Wd.
      destruct (beq b x22) eqn:B4.
      { apply beq_eq in B4 as ->. destruct (string s1) as [[t r']|] eqn:X; [|discriminate]. injection E as <- <-. apply string_sound in X as (u & -> & Tu).
        exists w, u. split; [reflexivity|]. split; [exact Bw|]. now constructor. }
      destruct (beq b x5b) eqn:B5.
      { apply beq_eq in B5 as ->. destruct d as [|[|d]]; [discriminate|discriminate|]. change (S (S d) <=? 1) with false in E. change (pred (S (S d))) with (S d) in *. cbv iota in E. destruct (skip s1) as [|c s2] eqn:Es2; [discriminate|].
        destruct (beq c x5d) eqn:B6.
        { apply beq_eq in B6 as ->. injection E as <- <-. apply skip_to in Es2 as (w2 & -> & Bw2). exists w, (x5b :: w2 ++ [x5d]).
          split; [cbn; now rewrite <- app_assoc|]. split; [exact Bw|]. now constructor. }
        destruct (elements f (S d) s1) as [[l r2]|] eqn:X; [|discriminate]. injection E as <- <-. apply IE in X as (t & -> & It). cbn [pred] in It.
        exists w, (x5b :: t ++ [x5d]). split; [cbn; now rewrite <- app_assoc|]. split; [exact Bw|]. now constructor. }
      destruct (beq b x7b) eqn:B7.
      { apply beq_eq in B7 as ->. destruct d as [|[|d]]; [discriminate|discriminate|]. change (S (S d) <=? 1) with false in E. change (pred (S (S d))) with (S d) in *. cbv iota in E. destruct (skip s1) as [|c s2] eqn:Es2; [discriminate|].
        destruct (beq c x7d) eqn:B8.
        { apply beq_eq in B8 as ->. injection E as <- <-. apply skip_to in Es2 as (w2 & -> & Bw2). exists w, (x7b :: w2 ++ [x7d]).
          split; [cbn; now rewrite <- app_assoc|]. split; [exact Bw|]. now constructor. }
        destruct (members f (S d) s1) as [[l r2]|] eqn:X; [|discriminate]. injection E as <- <-. apply IM in X as (t & -> & It). cbn [pred] in It.
        exists w, (x7b :: t ++ [x7d]). split; [cbn; now rewrite <- app_assoc|]. split; [exact Bw|]. econstructor; [exact It|apply map_of_wins]. }
      destruct (_ || _)%bool; [|discriminate]. apply number_sound in E as (t & -> & Nt). exists w, t. split; [reflexivity|]. split; [exact Bw|]. now constructor.
    - intros d s l r E. rewrite elements_S in E. destruct (value f d s) as [[v s1]|] eqn:X; [|discriminate]. apply IV in X as (w & t & -> & Bw & M).
      destruct (skip s1) as [|c s2] eqn:Es; [discriminate|]. apply skip_to in Es as (w' & -> & Bw'). destruct (beq c x5d) eqn:B1.
      { apply beq_eq in B1 as ->. injection E as <- <-. exists (w ++ t ++ w'). split; [now rewrite <- !app_assoc|]. now constructor. }
      destruct (beq c x2c) eqn:B2; [|discriminate]. apply beq_eq in B2 as ->. destruct (elements f d s2) as [[l' r2]|] eqn:Y; [|discriminate]. injection E as <- <-.
      apply IE in Y as (t' & -> & It). exists (w ++ t ++ w' ++ x2c :: t'). split; [now rewrite <- !app_assoc|]. now constructor.
    - intros d s l r E. rewrite members_S in E. destruct (skip s) as [|b s0] eqn:Es; [discriminate|]. apply skip_to in Es as (w & -> & Bw).
      destruct (beq b x22) eqn:B0; [|discriminate]. apply beq_eq in B0 as ->. destruct (string s0) as [[k s1]|] eqn:Ek; [|discriminate]. apply string_sound in Ek as (kt & -> & Tk).
      destruct (skip s1) as [|c s2] eqn:Es1; [discriminate|]. apply skip_to in Es1 as (w' & -> & Bw'). destruct (beq c x3a) eqn:B1; [|discriminate]. apply beq_eq in B1 as ->.
      destruct (value f d s2) as [[v s3]|] eqn:X; [|discriminate]. apply IV in X as (w1 & t & -> & Bw1 & M).
      destruct (skip s3) as [|c2 s4] eqn:Es3; [discriminate|]. apply skip_to in Es3 as (w1' & -> & Bw1'). destruct (beq c2 x7d) eqn:B2.
      { apply beq_eq in B2 as ->. injection E as <- <-. exists (w ++ kt ++ w' ++ x3a :: w1 ++ t ++ w1').
        split; [rewrite <- !app_assoc; cbn [app]; now rewrite <- !app_assoc|]. now constructor. }
      destruct (beq c2 x2c) eqn:B3; [|discriminate]. apply beq_eq in B3 as ->. destruct (members f d s4) as [[l' r2]|] eqn:Y; [|discriminate]. injection E as <- <-.
      apply IM in Y as (t' & -> & It). exists (w ++ kt ++ w' ++ x3a :: w1 ++ t ++ w1' ++ x2c :: t').
      split; [rewrite <- !app_assoc; cbn [app]; rewrite <- !app_assoc; reflexivity|]. now constructor.
  Qed.

  (** ** The grammar is read *)
  Lemma stops_blank w c r : blank w -> stops (c :: r) -> stops (w ++ c :: r).
  Proof. intros B St. destruct B as [|b w B _]; [exact St|]. cbn. destruct B as [<-|[<-|[<-|[<-|[]]]]]; conj; reflexivity. Qed.
  Lemma stops_blank_end w : blank w -> stops w.
  Proof. intros B. destruct B as [|b w B _]; [exact I|]. cbn. destruct B as [<-|[<-|[<-|[<-|[]]]]]; conj; reflexivity. Qed.

  (** A value starts with a character that is neither white space nor a closing
      bracket. *)
  Lemma number_first t v : number_text fread t v -> exists c t', t = c :: t' /\ (beq c x2d || is_digit c)%bool = true.
  Proof.
    intros [n L|n L|sg n fr ex b Is Tf Te C Fb].
    - destruct (decimal_spec (fun _ => []) fread n) as (z & ds & -> & D & _). exists z, ds. split; [reflexivity|]. cbn in D. apply andb_true_iff in D as [-> _]. apply orb_true_r.
    - exists x2d, (decimal n). split; reflexivity.
    - destruct Is as [<-|[<-|[]]]; [|exists x2d; eexists; split; reflexivity].
      destruct (decimal_spec (fun _ => []) fread n) as (z & ds & -> & D & _). exists z. eexists. split; [reflexivity|]. cbn in D. apply andb_true_iff in D as [-> _]. apply orb_true_r.
  Qed.
  Lemma first_char n t v : means n t v -> exists c t', t = c :: t' /\ ws c = false /\ beq c x5d = false.
  Proof.
    intros M. destruct M; try (do 2 eexists; split; [reflexivity|split; reflexivity]).
    - destruct H as (t' & -> & _). do 2 eexists; split; [reflexivity|split; reflexivity].
    - apply number_first in H as (c & t' & -> & Hc). exists c, t'. split; [reflexivity|].
      assert (c = x2d \/ is_digit c = true) as [->|D] by (apply orb_true_iff in Hc; rewrite beq_eq in Hc; exact Hc); [split; reflexivity|].
      destruct c; try discriminate D; split; reflexivity.
  Qed.

  Lemma value_blank f d w s : blank w -> value f d (w ++ s) = value f d s.
  Proof. intros B. destruct f; [reflexivity|]. rewrite value_S. now rewrite skip_blank. Qed.

  Definition reads_v d t v := forall r, stops r -> exists F, forall f, F <= f -> value f d (t ++ r) = Some (v, r).
  Definition reads_l d t l := forall r, exists F, forall f, F <= f -> elements f d (t ++ x5d :: r) = Some (l, r).
  Definition reads_m d t l := forall r, exists F, forall f, F <= f -> members f d (t ++ x7d :: r) = Some (l, r).

  Lemma grammar_read :
    (forall n t v, means n t v -> reads_v (S n) t v) /\
    (forall n t l, items n t l -> reads_l (S n) t l) /\
    (forall n t l, pairs n t l -> reads_m (S n) t l).
  Proof.
    assert (forall c r, beq c x2c || beq c x5d || beq c x7d = true -> stops (c :: r)) as Sc.
    { intros c r H. rewrite !orb_true_iff, !beq_eq in H. destruct H as [[->| ->]| ->]; cbn; conj; reflexivity. }
    apply means_items_pairs_ind.
    - intros n r St. exists 1. intros [|f] L; [lia|]. reflexivity.
    - intros n r St. exists 1. intros [|f] L; [lia|]. reflexivity.
    - intros n r St. exists 1. intros [|f] L; [lia|]. reflexivity.
    - intros n t s Ts r St. destruct (string_complete r Ts) as (t1 & E & Es). exists 1. intros [|f] L; [lia|]. rewrite E. cbn. now rewrite Es.
    - intros n t v Nt r St. exists 1. intros [|f] L; [lia|]. pose proof (number_complete r Nt St) as E.
      destruct (number_first Nt) as (c & t' & -> & Hc). cbn [app] in *. destruct (number_start _ Hc) as (W & B1 & B2 & B3 & B4 & B5 & B6 & B7).
      rewrite value_S. rewrite skip_id by assumption. rewrite B1, B2, B3, B4, B5, B6, Hc. exact E.
    - intros n w B r St. exists 1. intros [|f] L; [lia|]. cbn [app]. rewrite value_S. rewrite skip_id by reflexivity. 
      change (beq x5b x6e) with false. change (beq x5b x74) with false. change (beq x5b x66) with false. change (beq x5b x22) with false. change (beq x5b x5b) with true. cbn match.
      rewrite <- app_assoc, skip_blank by assumption. reflexivity.
    - intros n t l It IH r St. destruct (IH r) as (F & HF). exists (S F). intros [|f] L; [lia|]. cbn [app]. rewrite value_S. rewrite skip_id by reflexivity.
      change (beq x5b x6e) with false. change (beq x5b x74) with false. change (beq x5b x66) with false. change (beq x5b x22) with false. change (beq x5b x5b) with true. cbn match.
      cbn [Nat.leb pred]. rewrite <- app_assoc. cbn [app].
      assert (exists c r1, skip (t ++ x5d :: r) = c :: r1 /\ beq c x5d = false) as (c & r1 & -> & ->).
      { assert (exists w t1 x, t = w ++ t1 ++ x /\ blank w /\ exists v, means n t1 v) as (w & t1 & x & -> & Bw & v & M) by (destruct It; do 3 eexists; eauto).
        apply first_char in M as (c & t' & -> & W & B). rewrite <- app_assoc, skip_blank by assumption. cbn [app]. rewrite skip_id by assumption. eauto. }
      rewrite HF by lia. reflexivity.
    - intros n w B r St. exists 1. intros [|f] L; [lia|]. cbn [app]. rewrite value_S. rewrite skip_id by reflexivity.
      change (beq x7b x6e) with false. change (beq x7b x74) with false. change (beq x7b x66) with false. change (beq x7b x22) with false. change (beq x7b x5b) with false. change (beq x7b x7b) with true. cbn match.
      rewrite <- app_assoc, skip_blank by assumption. reflexivity.
    - intros n t l m It IH Lw r St. apply wins_map_of in Lw as ->. destruct (IH r) as (F & HF). exists (S F). intros [|f] L; [lia|]. cbn [app]. rewrite value_S. rewrite skip_id by reflexivity.
      change (beq x7b x6e) with false. change (beq x7b x74) with false. change (beq x7b x66) with false. change (beq x7b x22) with false. change (beq x7b x5b) with false. change (beq x7b x7b) with true. cbn match.
      cbn [Nat.leb pred]. rewrite <- app_assoc. cbn [app].
      assert (exists c r1, skip (t ++ x7d :: r) = c :: r1 /\ beq c x7d = false) as (c & r1 & -> & ->).
      { assert (exists w t1 x k, t = w ++ t1 ++ x /\ blank w /\ string_text t1 k) as (w & t1 & x & k & -> & Bw & (t' & -> & _)) by (destruct It; do 4 eexists; eauto).
        rewrite <- app_assoc, skip_blank by assumption. cbn [app]. rewrite skip_id by reflexivity. eauto. }
      rewrite HF by lia. reflexivity.
    - intros n w t w' v Bw Bw' M IH r. destruct (IH (w' ++ x5d :: r)) as (F & HF); [apply stops_blank; [assumption|now apply Sc]|].
      exists (S F). intros [|f] L; [lia|]. rewrite elements_S. rewrite <- !app_assoc, value_blank by assumption. rewrite HF by lia.
      rewrite skip_blank by assumption. reflexivity.
    - intros n w t w' v t' l Bw Bw' M IH It IHl r. destruct (IH (w' ++ x2c :: t' ++ x5d :: r)) as (F & HF); [apply stops_blank; [assumption|now apply Sc]|].
      destruct (IHl r) as (G & HG). exists (S (F + G)). intros [|f] L; [lia|]. rewrite elements_S. rewrite <- !app_assoc, value_blank by assumption. cbn [app]. rewrite HF by lia.
      rewrite skip_blank by assumption. rewrite skip_id by reflexivity. change (beq x2c x5d) with false. change (beq x2c x2c) with true. cbn match. now rewrite HG by lia.
    - intros n w kt k w' w1 t w1' v Bw Tk Bw' Bw1 M IH Bw1' r. destruct (IH (w1' ++ x7d :: r)) as (F & HF); [apply stops_blank; [assumption|now apply Sc]|].
      exists (S F). intros [|f] L; [lia|]. rewrite members_S. rewrite <- !app_assoc, skip_blank by assumption. cbn [app]. rewrite <- !app_assoc.
      destruct (string_complete (w' ++ x3a :: w1 ++ t ++ w1' ++ x7d :: r) Tk) as (k1 & E & Es). rewrite E. rewrite skip_id by reflexivity.
      change (beq x22 x22) with true. cbn match. rewrite Es. rewrite skip_blank by assumption. rewrite skip_id by reflexivity. change (beq x3a x3a) with true. cbn match.
      rewrite value_blank by assumption. rewrite HF by lia. rewrite skip_blank by assumption. reflexivity.
    - intros n w kt k w' w1 t w1' v t' l Bw Tk Bw' Bw1 M IH Bw1' It IHl r. destruct (IH (w1' ++ x2c :: t' ++ x7d :: r)) as (F & HF); [apply stops_blank; [assumption|now apply Sc]|].
      destruct (IHl r) as (G & HG). exists (S (F + G)). intros [|f] L; [lia|]. rewrite members_S. rewrite <- !app_assoc, skip_blank by assumption. cbn [app]. rewrite <- !app_assoc. cbn [app].
      destruct (string_complete (w' ++ x3a :: w1 ++ t ++ w1' ++ x2c :: t' ++ x7d :: r) Tk) as (k1 & E & Es). rewrite E. rewrite skip_id by reflexivity.
      change (beq x22 x22) with true. cbn match. rewrite Es. rewrite skip_blank by assumption. rewrite skip_id by reflexivity. change (beq x3a x3a) with true. cbn match.
      rewrite value_blank by assumption. rewrite HF by lia. rewrite skip_blank by assumption. rewrite skip_id by reflexivity.
      change (beq x2c x7d) with false. change (beq x2c x2c) with true. cbn match. now rewrite HG by lia.
  Qed.

  Theorem reads_grammar s v : read fread s = Some v <-> json_text fread 127 s v.
  Proof.
    split.
    - unfold read. destruct (value (2 * length s + 2) 128 s) as [[v' r]|] eqn:E; [|discriminate]. destruct (skip r) eqn:Sk; [|discriminate]. intros [= <-].
      apply (proj1 (reading_sound _)) in E as (w & t & -> & Bw & M). exists w, t, r. conj; auto. now apply skip_nil.
    - intros (w & t & w' & -> & Bw & Bw' & M). destruct (proj1 grammar_read _ _ _ M w' (stops_blank_end Bw')) as (F & HF).
      apply (@read_enough (fun _ => []) fread F _ v w'); [|now apply skip_all]. rewrite value_blank by assumption. apply HF. lia.
  Qed.
End Read.

(** ** The theorems *)
From Verif Require Import F64 FloatText FloatFacts FloatClose.
Local Open Scope nat_scope.
Local Open Scope list_scope.


(** A text is read as a value exactly if the grammar says so. *)
Theorem C65_read : forall (fread : list byte -> option N) s v, read fread s = Some v <-> json_text fread 127 s v.
Proof. exact reads_grammar. Qed.

(** With the reader of floats of serde_json (FloatText.v), whose results are
    finite: property values. *)
Theorem C65_values : forall s (v : json), of_text read_f64 s = Some v <-> json_text read_f64 127 s (jraw v).
Proof.
  intros s v. rewrite <- C65_read. unfold of_text. split.
  - destruct (read read_f64 s) as [x|]; [|discriminate]. destruct (Bool.bool_dec _ _); [|discriminate]. now intros [= <-].
  - intros ->. destruct (Bool.bool_dec (wf_raw (jraw v)) true) as [E|N0]; [|destruct N0; exact (proj2_sig v)].
    apply (f_equal Some). now apply (@bsub_eq raw wf_raw).
Qed.

(** Anything else is refused. *)
Theorem C65_refused : forall s, of_text read_f64 s = None <-> forall v, ~ json_text read_f64 127 s v.
Proof.
  intros s. split.
  - intros E v J. apply C65_read in J. unfold of_text in E. rewrite J in E. pose proof (@read_wf read_f64 read_finite _ _ J) as W.
    destruct (Bool.bool_dec _ _); [discriminate|contradiction].
  - intros A. destruct (of_text read_f64 s) as [v|] eqn:E; [|reflexivity]. apply C65_values in E. destruct (A _ E).
Qed.

(** No text has two meanings. *)
Theorem C65_unambiguous : forall fread s v w, json_text fread 127 s v -> json_text fread 127 s w -> v = w.
Proof. intros fread s v w A B. apply C65_read in A, B. congruence. Qed.

(** What the server makes of the text of a value in a request. *)
Theorem C65_request : forall p (v : json), of_json (of_text read_f64) p = COk v <-> json_text read_f64 127 (pj_value p) (jraw v).
Proof.
  intros p v. rewrite <- C65_values. unfold of_json. destruct (of_text read_f64 (pj_value p)) as [x|]; split; congruence.
Qed.

(** What is written is in the grammar. *)
Theorem C65_written : forall fmt fread (v : json), Forall (float_ok fmt fread) (floats (jraw v)) -> depth (jraw v) <= 127 ->
  json_text fread 127 (to_text fmt v) (jraw v).
Proof.
  intros fmt fread v F D. apply C65_read. pose proof (@of_text_to_text fmt fread v F D) as E. unfold of_text in E.
  destruct (read fread (to_text fmt v)) as [x|]; [|discriminate]. destruct (Bool.bool_dec _ _); [|discriminate]. injection E as <-. reflexivity.
Qed.

(** ** Cases *)
From Coq Require Import String.
Local Open Scope string_scope.
Local Definition chars_of (s : string) : list byte := list_byte_of_string s.
(** White space, escapes (a surrogate pair), a key twice, and numbers. *)
Definition messy : list byte := chars_of " { ""a"" : ""\uD83D\uDE00\/\u0041"" , ""b"":[1,-2 , 18446744073709551615, true,null,{}],""a"":[ ] } ".
Example C65_case :
  json_text read_f64 127 messy (RObj [([x61], RArr []); ([x62], RArr [RPos 1; RNeg (-2); RPos 18446744073709551615; RBool true; RNull; RObj []])]) /\
  json_text read_f64 127 (chars_of """\uD83D\uDE00\/\u0041""") (RStr [xf0; x9f; x98; x80; x2f; x41]).
Proof. split; apply C65_read; vm_compute; reflexivity. Qed.
(** Not JSON: a trailing comma, a leading zero, a lone surrogate, a plus sign, a bare
    point, single quotes, a raw control character, two values. *)
Example C65_not_json : forall s, In s [chars_of "[1,]"; chars_of "01"; chars_of """\uD83D"""; chars_of "+1"; chars_of "1."; chars_of "'a'"; [x22; x0a; x22]; chars_of "1 2"; []] ->
  of_text read_f64 s = None.
Proof.
  intros s I. assert (read read_f64 s = None) as E.
  { cbn [In] in I. repeat (destruct I as [<-|I]; [vm_compute; reflexivity|]). destruct I. }
  unfold of_text. now rewrite E.
Qed.
