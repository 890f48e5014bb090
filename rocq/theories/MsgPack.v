(** * The MessagePack encoding used for images (rmp-serde 1.1.2, rmp 0.8.12).

    A dependency of /repo, modelled from its specification: [enc_mp] is what
    [rmp_serde::encode::write] produces for a tree of values (smallest form for
    every integer and length), [dec_mp] what [rmp_serde::from_read] accepts.
    Simplification: the real (de)serialiser streams into the target type; the
    model goes through a tree. *)
From Verif Require Import Base Util UtilFacts Utf8.

Set Implicit Arguments.

Inductive mp :=
| MNil
| MBool (b : bool)
| MInt (z : Z)
| MF64 (bits : N)
| MStr (s : list byte)
| MBin (s : list byte)
| MArr (l : list mp)
| MMap (l : list (mp * mp)).

Section MpInd.
  Variable P : mp -> Prop.
  Hypothesis Hnil : P MNil.
  Hypothesis Hbool : forall b, P (MBool b).
  Hypothesis Hint : forall z, P (MInt z).
  Hypothesis Hflt : forall b, P (MF64 b).
  Hypothesis Hstr : forall s, P (MStr s).
  Hypothesis Hbin : forall s, P (MBin s).
  Hypothesis Harr : forall l, Forall P l -> P (MArr l).
  Hypothesis Hmap : forall l, Forall (fun kv => P (fst kv) /\ P (snd kv)) l -> P (MMap l).

  Fixpoint mp_nested_ind (v : mp) : P v :=
    match v with
    | MNil => Hnil
    | MBool b => Hbool b
    | MInt z => Hint z
    | MF64 b => Hflt b
    | MStr s => Hstr s
    | MBin s => Hbin s
    | MArr l => Harr ((fix go (l : list mp) : Forall P l :=
                         match l with
                         | [] => Forall_nil _
                         | x :: r => Forall_cons _ (mp_nested_ind x) (go r)
                         end) l)
    | MMap l => Hmap ((fix go (l : list (mp * mp)) : Forall (fun kv => P (fst kv) /\ P (snd kv)) l :=
                         match l with
                         | [] => Forall_nil _
                         | x :: r => Forall_cons _ (conj (mp_nested_ind (fst x)) (mp_nested_ind (snd x))) (go r)
                         end) l)
    end.
End MpInd.

(** ** Encoding *)

(** rmp [write_uint] / [write_sint]: the smallest representation. *)
Definition enc_uint (n : N) : list byte :=
  if (n <? 0x80)%N then [byte_of n]
  else if (n <? 2 ^ 8)%N then xcc :: be_bytes 1 n
  else if (n <? 2 ^ 16)%N then xcd :: be_bytes 2 n
  else if (n <? 2 ^ 32)%N then xce :: be_bytes 4 n
  else xcf :: be_bytes 8 n.

Definition twos (k : N) (z : Z) : N := Z.to_N (z mod 2 ^ Z.of_N k)%Z.

Definition enc_int (z : Z) : list byte :=
  if (0 <=? z)%Z then enc_uint (Z.to_N z)
  else if (- 32 <=? z)%Z then [byte_of (twos 8 z)]
  else if (- 2 ^ 7 <=? z)%Z then xd0 :: be_bytes 1 (twos 8 z)
  else if (- 2 ^ 15 <=? z)%Z then xd1 :: be_bytes 2 (twos 16 z)
  else if (- 2 ^ 31 <=? z)%Z then xd2 :: be_bytes 4 (twos 32 z)
  else xd3 :: be_bytes 8 (twos 64 z).

Definition str_head (n : N) : list byte :=
  if (n <? 32)%N then [byte_of (0xa0 + n)]
  else if (n <? 2 ^ 8)%N then xd9 :: be_bytes 1 n
  else if (n <? 2 ^ 16)%N then xda :: be_bytes 2 n
  else xdb :: be_bytes 4 n.
Definition bin_head (n : N) : list byte :=
  if (n <? 2 ^ 8)%N then xc4 :: be_bytes 1 n
  else if (n <? 2 ^ 16)%N then xc5 :: be_bytes 2 n
  else xc6 :: be_bytes 4 n.
Definition arr_head (n : N) : list byte :=
  if (n <? 16)%N then [byte_of (0x90 + n)]
  else if (n <? 2 ^ 16)%N then xdc :: be_bytes 2 n
  else xdd :: be_bytes 4 n.
Definition map_head (n : N) : list byte :=
  if (n <? 16)%N then [byte_of (0x80 + n)]
  else if (n <? 2 ^ 16)%N then xde :: be_bytes 2 n
  else xdf :: be_bytes 4 n.

(** Lengths are written [as u32]; [wf_mp] below excludes larger ones. *)
Fixpoint enc_mp (v : mp) : list byte :=
  match v with
  | MNil => [xc0]
  | MBool b => [if b then xc3 else xc2]
  | MInt z => enc_int z
  | MF64 b => xcb :: be_bytes 8 b
  | MStr s => str_head (lenN s) ++ s
  | MBin s => bin_head (lenN s) ++ s
  | MArr l => arr_head (lenN l) ++ flat_map enc_mp l
  | MMap l => map_head (lenN l) ++ flat_map (fun kv => enc_mp (fst kv) ++ enc_mp (snd kv)) l
  end.

(** ** Decoding *)

Inductive marker :=
| KInt (z : Z) | KUint (k : nat) | KSint (k : nat) | KNil | KBool (b : bool) | KF64
| KStrN (n : N) | KStr (k : nat) | KBin (k : nat) | KArrN (n : N) | KArr (k : nat) | KMapN (n : N) | KMap (k : nat)
| KBad.

Definition marker_of (b : byte) : marker :=
  let n := bN b in
  if (n <? 0x80)%N then KInt (Z.of_N n)
  else if (n <? 0x90)%N then KMapN (n - 0x80)
  else if (n <? 0xa0)%N then KArrN (n - 0x90)
  else if (n <? 0xc0)%N then KStrN (n - 0xa0)
  else if (0xe0 <=? n)%N then KInt (Z.of_N n - 256)
  else match b with
  | xc0 => KNil | xc2 => KBool false | xc3 => KBool true
  | xc4 => KBin 1 | xc5 => KBin 2 | xc6 => KBin 4
  | xcb => KF64
  | xcc => KUint 1 | xcd => KUint 2 | xce => KUint 4 | xcf => KUint 8
  | xd0 => KSint 1 | xd1 => KSint 2 | xd2 => KSint 4 | xd3 => KSint 8
  | xd9 => KStr 1 | xda => KStr 2 | xdb => KStr 4
  | xdc => KArr 2 | xdd => KArr 4 | xde => KMap 2 | xdf => KMap 4
  | _ => KBad
  end.

Definition take (n : nat) (l : list byte) : option (list byte * list byte) :=
  if (n <=? length l)%nat then Some (firstn n l, skipn n l) else None.

Definition obnd {A B} (o : option A) (f : A -> option B) : option B :=
  match o with Some a => f a | None => None end.

(** A big-endian number of [k] bytes. *)
Definition dec_uint (k : nat) (l : list byte) : option (N * list byte) :=
  obnd (take k l) (fun '(a, r) => Some (bev a, r)).

Definition untwos (k : nat) (n : N) : Z :=
  if (n <? 2 ^ (8 * N.of_nat k - 1))%N then Z.of_N n else (Z.of_N n - 2 ^ (8 * Z.of_nat k))%Z.

Section DecList.
  Context {A : Type}.
  Variable f : list byte -> option (A * list byte).
  Fixpoint dec_list (n : nat) (l : list byte) : option (list A * list byte) :=
    match n with
    | O => Some ([], l)
    | S n' => obnd (f l) (fun '(a, r) => obnd (dec_list n' r) (fun '(x, r') => Some (a :: x, r')))
    end.
End DecList.

Definition dec_pair {A} (f : list byte -> option (A * list byte)) (l : list byte) : option ((A * A) * list byte) :=
  obnd (f l) (fun '(k, r) => obnd (f r) (fun '(v, r') => Some ((k, v), r'))).

Definition dec_str (n : N) (l : list byte) : option (mp * list byte) :=
  obnd (take (N.to_nat n) l) (fun '(s, r) => if utf8_valid s then Some (MStr s, r) else None).
Definition dec_bin (n : N) (l : list byte) : option (mp * list byte) :=
  obnd (take (N.to_nat n) l) (fun '(s, r) => Some (MBin s, r)).

(** [d] is the nesting the decoder still accepts (rmp-serde starts at 1024).
    A count cannot exceed the remaining input (every item takes a byte); the
    model checks this first to stay executable. *)
Definition dec_items {A} (f : list byte -> option (A * list byte)) (n : N) (l : list byte) : option (list A * list byte) :=
  if (lenN l <? n)%N then None else dec_list f (N.to_nat n) l.

Fixpoint dec_mp (d : nat) (l : list byte) : option (mp * list byte) :=
  match d with
  | O => None
  | S d' =>
    let arr n r := obnd (dec_items (dec_mp d') n r) (fun '(x, r') => Some (MArr x, r')) in
    let map n r := obnd (dec_items (dec_pair (dec_mp d')) n r) (fun '(x, r') => Some (MMap x, r')) in
    match l with
    | [] => None
    | b :: r =>
      match marker_of b with
      | KInt z => Some (MInt z, r)
      | KUint k => obnd (dec_uint k r) (fun '(n, r') => Some (MInt (Z.of_N n), r'))
      | KSint k => obnd (dec_uint k r) (fun '(n, r') => Some (MInt (untwos k n), r'))
      | KNil => Some (MNil, r)
      | KBool b => Some (MBool b, r)
      | KF64 => obnd (dec_uint 8 r) (fun '(n, r') => Some (MF64 n, r'))
      | KStrN n => dec_str n r
      | KStr k => obnd (dec_uint k r) (fun '(n, r') => dec_str n r')
      | KBin k => obnd (dec_uint k r) (fun '(n, r') => dec_bin n r')
      | KArrN n => arr n r
      | KArr k => obnd (dec_uint k r) (fun '(n, r') => arr n r')
      | KMapN n => map n r
      | KMap k => obnd (dec_uint k r) (fun '(n, r') => map n r')
      | KBad => None
      end
    end
  end.

(** ** Round trip *)

(** Values within the limits of the format. *)
Fixpoint wf_mp (v : mp) : bool :=
  match v with
  | MNil | MBool _ => true
  | MInt z => (- 2 ^ 63 <=? z)%Z && (z <? 2 ^ 64)%Z
  | MF64 b => (b <? 2 ^ 64)%N
  | MStr s => (lenN s <? 2 ^ 32)%N && utf8_valid s
  | MBin s => (lenN s <? 2 ^ 32)%N
  | MArr l => (lenN l <? 2 ^ 32)%N && forallb wf_mp l
  | MMap l => (lenN l <? 2 ^ 32)%N && forallb (fun kv => wf_mp (fst kv) && wf_mp (snd kv)) l
  end.

Definition lmax {A} (f : A -> nat) (l : list A) : nat := fold_right (fun a n => Nat.max (f a) n) 0%nat l.

Fixpoint mp_depth (v : mp) : nat :=
  match v with
  | MArr l => S (lmax mp_depth l)
  | MMap l => S (lmax (fun kv => Nat.max (mp_depth (fst kv)) (mp_depth (snd kv))) l)
  | _ => 1%nat
  end.

Lemma lmax_le {A} (f : A -> nat) l d : (lmax f l <= d)%nat <-> forall x, In x l -> (f x <= d)%nat.
Proof.
  induction l as [|a l IH]; cbn [lmax fold_right].
  - split; [intros _ x []|lia].
  - rewrite Nat.max_lub_iff. fold (lmax f l). rewrite IH. split.
    + intros [H1 H2] x [<-|Hx]; auto.
    + intros H. split; [apply H; now left|]. intros x Hx. apply H. now right.
Qed.

Lemma take_app (a r : list byte) n : length a = n -> take n (a ++ r) = Some (a, r).
Proof.
  intros <-. unfold take. rewrite app_length.
  assert ((length a <=? length a + length r)%nat = true) as -> by (apply Nat.leb_le; lia).
  now rewrite firstn_app, skipn_app, firstn_all, skipn_all, Nat.sub_diag, firstn_O, skipn_O, app_nil_r.
Qed.

Lemma be_len k n : length (be_bytes k n) = k.
Proof. revert n; induction k as [|k IH]; intros n; cbn; [reflexivity|]. rewrite app_length, IH. cbn. lia. Qed.

Lemma bev_be k : forall n, (n < 256 ^ N.of_nat k)%N -> bev (be_bytes k n) = n.
Proof.
  induction k as [|k IH]; intros n Hn.
  - cbn in *. lia.
  - cbn [be_bytes]. rewrite bev_app, IH, bN_byte_of.
    + symmetry. apply N.div_mod'.
    + apply N.div_lt_upper_bound; [discriminate|]. rewrite <- N.pow_succ_r'. replace (N.succ (N.of_nat k)) with (N.of_nat (S k)) by lia. assumption.
Qed.

Lemma dec_uint_be k n r : (n < 256 ^ N.of_nat k)%N -> dec_uint k (be_bytes k n ++ r) = Some (n, r).
Proof. intros Hn. unfold dec_uint. rewrite take_app by apply be_len. cbn [obnd]. now rewrite bev_be. Qed.

Lemma marker_pos n : (n < 0x80)%N -> marker_of (byte_of n) = KInt (Z.of_N n).
Proof.
  intros H. unfold marker_of. rewrite bN_small by lia.
  destruct (N.ltb_spec n 0x80); [reflexivity|lia].
Qed.
Lemma marker_map n : (n < 16)%N -> marker_of (byte_of (0x80 + n)) = KMapN n.
Proof.
  intros H. unfold marker_of. rewrite bN_small by lia.
  destruct (N.ltb_spec (0x80 + n) 0x80); [lia|]. destruct (N.ltb_spec (0x80 + n) 0x90); [|lia].
  f_equal. lia.
Qed.
Lemma marker_arr n : (n < 16)%N -> marker_of (byte_of (0x90 + n)) = KArrN n.
Proof.
  intros H. unfold marker_of. rewrite bN_small by lia.
  destruct (N.ltb_spec (0x90 + n) 0x80); [lia|]. destruct (N.ltb_spec (0x90 + n) 0x90); [lia|].
  destruct (N.ltb_spec (0x90 + n) 0xa0); [|lia]. f_equal. lia.
Qed.
Lemma marker_str n : (n < 32)%N -> marker_of (byte_of (0xa0 + n)) = KStrN n.
Proof.
  intros H. unfold marker_of. rewrite bN_small by lia.
  destruct (N.ltb_spec (0xa0 + n) 0x80); [lia|]. destruct (N.ltb_spec (0xa0 + n) 0x90); [lia|].
  destruct (N.ltb_spec (0xa0 + n) 0xa0); [lia|]. destruct (N.ltb_spec (0xa0 + n) 0xc0); [|lia]. f_equal. lia.
Qed.
Lemma marker_neg z : (- 32 <= z < 0)%Z -> marker_of (byte_of (twos 8 z)) = KInt z.
Proof.
  intros H. assert (twos 8 z = Z.to_N (z + 256)) as E.
  { unfold twos. f_equal. cbn [Z.of_N]. symmetry. apply Z.mod_unique with (q := (-1)%Z); lia. }
  rewrite E. unfold marker_of. rewrite bN_small by lia. set (n := Z.to_N (z + 256)).
  assert (0xe0 <= n < 256)%N by (unfold n; lia).
  destruct (N.ltb_spec n 0x80); [lia|]. destruct (N.ltb_spec n 0x90); [lia|].
  destruct (N.ltb_spec n 0xa0); [lia|]. destruct (N.ltb_spec n 0xc0); [lia|].
  destruct (N.leb_spec 0xe0 n); [|lia]. f_equal. unfold n. lia.
Qed.

Lemma twos_value k z : (0 < k)%nat -> (- 2 ^ (8 * Z.of_nat k - 1) <= z < 0)%Z ->
  (twos (8 * N.of_nat k) z < 256 ^ N.of_nat k)%N /\ untwos k (twos (8 * N.of_nat k) z) = z.
Proof.
  intros Hk Hz.
  assert (2 ^ (8 * Z.of_nat k) = 2 * 2 ^ (8 * Z.of_nat k - 1))%Z as Ep.
  { rewrite <- Z.pow_succ_r by lia. f_equal. lia. }
  assert (0 < 2 ^ (8 * Z.of_nat k - 1))%Z as Pp by (apply Z.pow_pos_nonneg; lia).
  assert (Z.of_N (8 * N.of_nat k) = 8 * Z.of_nat k)%Z as Ek by lia.
  assert (z mod 2 ^ (8 * Z.of_nat k) = z + 2 ^ (8 * Z.of_nat k))%Z as Em.
  { symmetry. apply Z.mod_unique with (q := (-1)%Z); lia. }
  unfold twos. rewrite Ek, Em.
  assert (Z.of_N (256 ^ N.of_nat k) = 2 ^ (8 * Z.of_nat k))%Z as E1.
  { rewrite N2Z.inj_pow. change (Z.of_N 256) with (2 ^ 8)%Z. rewrite <- Z.pow_mul_r by lia. f_equal. lia. }
  assert (Z.of_N (2 ^ (8 * N.of_nat k - 1)) = 2 ^ (8 * Z.of_nat k - 1))%Z as E2.
  { rewrite N2Z.inj_pow. f_equal. lia. }
  set (p := (2 ^ (8 * Z.of_nat k - 1))%Z) in *. set (q := (2 ^ (8 * Z.of_nat k))%Z) in *.
  split.
  - apply N2Z.inj_lt. rewrite E1. rewrite Z2N.id; lia.
  - unfold untwos. fold q. destruct (N.ltb_spec (Z.to_N (z + q)) (2 ^ (8 * N.of_nat k - 1))) as [L|L].
    + apply N2Z.inj_lt in L. rewrite E2, Z2N.id in L; lia.
    + rewrite Z2N.id; lia.
Qed.

Lemma dec_enc_uint d n r : (n < 2 ^ 64)%N -> dec_mp (S d) (enc_uint n ++ r) = Some (MInt (Z.of_N n), r).
Proof.
  intros Hn. unfold enc_uint.
  destruct (N.ltb_spec n 0x80).
  { cbn [app dec_mp]. now rewrite marker_pos. }
  destruct (N.ltb_spec n (2 ^ 8)).
  { cbn [app dec_mp]. change (marker_of xcc) with (KUint 1). cbn iota beta. now rewrite dec_uint_be. }
  destruct (N.ltb_spec n (2 ^ 16)).
  { cbn [app dec_mp]. change (marker_of xcd) with (KUint 2). cbn iota beta. now rewrite dec_uint_be. }
  destruct (N.ltb_spec n (2 ^ 32)).
  { cbn [app dec_mp]. change (marker_of xce) with (KUint 4). cbn iota beta. now rewrite dec_uint_be. }
  cbn [app dec_mp]. change (marker_of xcf) with (KUint 8). cbn iota beta. now rewrite dec_uint_be.
Qed.

Lemma dec_enc_int d z r : (- 2 ^ 63 <= z < 2 ^ 64)%Z -> dec_mp (S d) (enc_int z ++ r) = Some (MInt z, r).
Proof.
  intros Hz. unfold enc_int.
  destruct (Z.leb_spec 0 z).
  { rewrite dec_enc_uint by lia. now rewrite Z2N.id. }
  destruct (Z.leb_spec (- 32) z).
  { cbn [app dec_mp]. now rewrite marker_neg by lia. }
  destruct (Z.leb_spec (- 2 ^ 7) z).
  { cbn [app dec_mp]. change (marker_of xd0) with (KSint 1). cbn iota beta.
    destruct (@twos_value 1 z) as [B E]; [lia|cbn; lia|]. change (8 * N.of_nat 1)%N with 8%N in *.
    rewrite dec_uint_be by exact B. cbn [obnd]. now rewrite E. }
  destruct (Z.leb_spec (- 2 ^ 15) z).
  { cbn [app dec_mp]. change (marker_of xd1) with (KSint 2). cbn iota beta.
    destruct (@twos_value 2 z) as [B E]; [lia|cbn; lia|]. change (8 * N.of_nat 2)%N with 16%N in *.
    rewrite dec_uint_be by exact B. cbn [obnd]. now rewrite E. }
  destruct (Z.leb_spec (- 2 ^ 31) z).
  { cbn [app dec_mp]. change (marker_of xd2) with (KSint 4). cbn iota beta.
    destruct (@twos_value 4 z) as [B E]; [lia|cbn; lia|]. change (8 * N.of_nat 4)%N with 32%N in *.
    rewrite dec_uint_be by exact B. cbn [obnd]. now rewrite E. }
  cbn [app dec_mp]. change (marker_of xd3) with (KSint 8). cbn iota beta.
  destruct (@twos_value 8 z) as [B E]; [lia|cbn; lia|]. change (8 * N.of_nat 8)%N with 64%N in *.
  rewrite dec_uint_be by exact B. cbn [obnd]. now rewrite E.
Qed.

Lemma dec_list_map {A} (f : list byte -> option (A * list byte)) (g : A -> list byte) l r :
  (forall x r, In x l -> f (g x ++ r) = Some (x, r)) ->
  dec_list f (length l) (flat_map g l ++ r) = Some (l, r).
Proof.
  induction l as [|x l IH]; intros H; [reflexivity|].
  cbn [length dec_list flat_map]. rewrite <- app_assoc, H by now left. cbn [obnd].
  rewrite IH; [reflexivity|]. intros; apply H. now right.
Qed.

Lemma flat_map_len {A B} (g : A -> list B) l : (forall x, In x l -> (1 <= length (g x))%nat) ->
  (length l <= length (flat_map g l))%nat.
Proof.
  induction l as [|x l IH]; cbn; intros H; [lia|]. rewrite app_length.
  pose proof (H x (or_introl eq_refl)). specialize (IH (fun y Hy => H y (or_intror Hy))). lia.
Qed.

Lemma dec_items_map {A} (f : list byte -> option (A * list byte)) (g : A -> list byte) l r :
  (forall x, In x l -> (1 <= length (g x))%nat) ->
  (forall x r, In x l -> f (g x ++ r) = Some (x, r)) ->
  dec_items f (lenN l) (flat_map g l ++ r) = Some (l, r).
Proof.
  intros HL H. unfold dec_items. destruct (N.ltb_spec (lenN (flat_map g l ++ r)) (lenN l)) as [L|L].
  - exfalso. unfold lenN in L. rewrite app_length in L. pose proof (flat_map_len g l HL). lia.
  - unfold lenN. rewrite Nat2N.id. now apply dec_list_map.
Qed.

Lemma enc_uint_ne n : (1 <= length (enc_uint n))%nat.
Proof.
  unfold enc_uint. repeat match goal with |- context [if ?b then _ else _] => destruct b end; cbn [length]; lia.
Qed.
Lemma enc_mp_ne v : (1 <= length (enc_mp v))%nat.
Proof.
  destruct v; cbn [enc_mp]; rewrite ?app_length; try (cbn; lia).
  - unfold enc_int. destruct (0 <=? z)%Z; [apply enc_uint_ne|].
    repeat match goal with |- context [if ?b then _ else _] => destruct b end; cbn [length]; lia.
  - unfold str_head. repeat match goal with |- context [if ?b then _ else _] => destruct b end; cbn [length]; lia.
  - unfold bin_head. repeat match goal with |- context [if ?b then _ else _] => destruct b end; cbn [length]; lia.
  - unfold arr_head. repeat match goal with |- context [if ?b then _ else _] => destruct b end; cbn [length]; lia.
  - unfold map_head. repeat match goal with |- context [if ?b then _ else _] => destruct b end; cbn [length]; lia.
Qed.

Lemma dec_mp_arr d n l : (n < 2 ^ 32)%N ->
  dec_mp (S d) (arr_head n ++ l) = obnd (dec_items (dec_mp d) n l) (fun '(x, r') => Some (MArr x, r')).
Proof.
  intros Hn. unfold arr_head.
  destruct (N.ltb_spec n 16).
  { cbn [app dec_mp]. now rewrite marker_arr. }
  destruct (N.ltb_spec n (2 ^ 16)).
  { cbn [app dec_mp]. change (marker_of xdc) with (KArr 2). cbn iota beta. now rewrite dec_uint_be. }
  cbn [app dec_mp]. change (marker_of xdd) with (KArr 4). cbn iota beta. now rewrite dec_uint_be.
Qed.
Lemma dec_mp_map d n l : (n < 2 ^ 32)%N ->
  dec_mp (S d) (map_head n ++ l) = obnd (dec_items (dec_pair (dec_mp d)) n l) (fun '(x, r') => Some (MMap x, r')).
Proof.
  intros Hn. unfold map_head.
  destruct (N.ltb_spec n 16).
  { cbn [app dec_mp]. now rewrite marker_map. }
  destruct (N.ltb_spec n (2 ^ 16)).
  { cbn [app dec_mp]. change (marker_of xde) with (KMap 2). cbn iota beta. now rewrite dec_uint_be. }
  cbn [app dec_mp]. change (marker_of xdf) with (KMap 4). cbn iota beta. now rewrite dec_uint_be.
Qed.

Theorem dec_enc_mp v : forall d r, wf_mp v = true -> (mp_depth v <= d)%nat ->
  dec_mp d (enc_mp v ++ r) = Some (v, r).
Proof.
  induction v as [|b|z|b|s|s|l IH|l IH] using mp_nested_ind; intros d r W D;
    (destruct d as [|d]; [cbn in D; lia|]); cbn [wf_mp] in W.
  - reflexivity.
  - destruct b; reflexivity.
  - cbn [enc_mp]. apply dec_enc_int. lia.
  - cbn [enc_mp app dec_mp]. change (marker_of xcb) with KF64. cbn iota beta. rewrite dec_uint_be; [reflexivity|].
    apply N.ltb_lt in W. exact W.
  - apply andb_true_iff in W as [W U]. apply N.ltb_lt in W. cbn [enc_mp]. rewrite <- app_assoc.
    assert (dec_str (lenN s) (s ++ r) = Some (MStr s, r)) as K.
    { unfold dec_str. unfold lenN. rewrite Nat2N.id, take_app by reflexivity. cbn [obnd]. now rewrite U. }
    unfold str_head.
    destruct (N.ltb_spec (lenN s) 32).
    { cbn [app dec_mp]. rewrite marker_str by assumption. exact K. }
    destruct (N.ltb_spec (lenN s) (2 ^ 8)).
    { cbn [app dec_mp]. change (marker_of xd9) with (KStr 1). cbn iota beta. rewrite dec_uint_be by assumption. exact K. }
    destruct (N.ltb_spec (lenN s) (2 ^ 16)).
    { cbn [app dec_mp]. change (marker_of xda) with (KStr 2). cbn iota beta. rewrite dec_uint_be by assumption. exact K. }
    cbn [app dec_mp]. change (marker_of xdb) with (KStr 4). cbn iota beta. rewrite dec_uint_be by assumption. exact K.
  - apply N.ltb_lt in W. cbn [enc_mp]. rewrite <- app_assoc.
    assert (dec_bin (lenN s) (s ++ r) = Some (MBin s, r)) as K.
    { unfold dec_bin. unfold lenN. now rewrite Nat2N.id, take_app by reflexivity. }
    unfold bin_head.
    destruct (N.ltb_spec (lenN s) (2 ^ 8)).
    { cbn [app dec_mp]. change (marker_of xc4) with (KBin 1). cbn iota beta. rewrite dec_uint_be by assumption. exact K. }
    destruct (N.ltb_spec (lenN s) (2 ^ 16)).
    { cbn [app dec_mp]. change (marker_of xc5) with (KBin 2). cbn iota beta. rewrite dec_uint_be by assumption. exact K. }
    cbn [app dec_mp]. change (marker_of xc6) with (KBin 4). cbn iota beta. rewrite dec_uint_be by assumption. exact K.
  - apply andb_true_iff in W as [W F]. apply N.ltb_lt in W. cbn [enc_mp]. rewrite <- app_assoc.
    rewrite dec_mp_arr by assumption. rewrite dec_items_map; [reflexivity| |].
    + intros x _. apply enc_mp_ne.
    + intros x r' Hx. rewrite Forall_forall in IH. apply IH; [assumption| |].
      * rewrite forallb_forall in F. now apply F.
      * cbn [mp_depth] in D. apply le_S_n in D. rewrite lmax_le in D. now apply D.
  - apply andb_true_iff in W as [W F]. apply N.ltb_lt in W. cbn [enc_mp]. rewrite <- app_assoc.
    rewrite dec_mp_map by assumption. rewrite dec_items_map; [reflexivity| |].
    + intros x _. rewrite app_length. pose proof (enc_mp_ne (fst x)). lia.
    + intros [k v] r' Hx. rewrite Forall_forall in IH. destruct (IH _ Hx) as [Hk Hv]. cbn [fst snd] in *.
      rewrite forallb_forall in F. specialize (F _ Hx). cbn [fst snd] in F. apply andb_true_iff in F as [Fk Fv].
      cbn [mp_depth] in D. apply le_S_n in D. rewrite lmax_le in D. specialize (D _ Hx). cbn [fst snd] in D.
      unfold dec_pair. rewrite <- app_assoc, Hk by (assumption || lia). cbn [obnd]. rewrite Hv by (assumption || lia). reflexivity.
Qed.
