(** * JSON text

    The text form of property values: [serde_json::to_vec], [to_string],
    [from_slice] and [from_str], which /repo calls in lib/src/rdb/managers.rs
    (331, 338, 356, 442, 452, 470) and in proto/src/converters.rs (104-113).
    serde_json is a dependency: this file models its documented behaviour
    (version 1, default features), so that the hypothesis "the value survives the
    text form" of the theorems about RocksDB and gRPC can be discharged.

    The digits of floating-point numbers are the parameters [fmt] (shortest form,
    [ryu]) and [fread]; FloatText.v defines them.  Not modelled: positions in
    error messages. *)
From Verif Require Import Base OMap Json Utf8 MemFacts.

Set Implicit Arguments.

(** Equality of bytes. *)
Definition beq (a b : byte) : bool := (bN a =? bN b)%N.

(** ** Writing *)

(** A decimal digit. *)
Definition digit (n : N) : byte := byte_of (48 + n).
(** [itoa] *)
Fixpoint dec_aux (fuel : nat) (n : N) (acc : list byte) : list byte :=
  match fuel with
  | O => acc
  | S fuel => let acc' := digit (n mod 10) :: acc in if (n <? 10)%N then acc' else dec_aux fuel (n / 10) acc'
  end.
Definition decimal (n : N) : list byte := dec_aux (S (N.to_nat (N.log2 n))) n [].

(** A hexadecimal digit (lower case). *)
Definition hex (n : N) : byte := if (n <? 10)%N then byte_of (48 + n) else byte_of (87 + n).
(** serde_json's escape table: quote, backslash, the short escapes, [\u00xx] for
    the other control characters; everything else is copied. *)
Definition esc (b : byte) : list byte :=
  match b with
  | x22 => [x5c; x22] | x5c => [x5c; x5c]
  | x08 => [x5c; x62] | x09 => [x5c; x74] | x0a => [x5c; x6e] | x0c => [x5c; x66] | x0d => [x5c; x72]
  | _ => if (bN b <? 32)%N then [x5c; x75; x30; x30; hex (bN b / 16); hex (bN b mod 16)] else [b]
  end.
Definition quoted (s : list byte) : list byte := x22 :: flat_map esc s ++ [x22].

(** Elements separated by commas. *)
Fixpoint commas (l : list (list byte)) : list byte :=
  match l with
  | [] => []
  | x :: r => match r with [] => x | _ => x ++ x2c :: commas r end
  end.

Section Text.
  (** The text of a finite [f64], and what a number with a fraction, an exponent
      or too many digits is read as. *)
  Variable fmt : N -> list byte.
  Variable fread : list byte -> option N.

  (** Compact form; there is no limit on nesting when writing. *)
  Fixpoint text (v : raw) : list byte :=
    match v with
    | RNull => [x6e; x75; x6c; x6c]
    | RBool true => [x74; x72; x75; x65]
    | RBool false => [x66; x61; x6c; x73; x65]
    | RPos n => decimal n
    | RNeg z => x2d :: decimal (Z.to_N (- z))
    | RFlt b => fmt b
    | RStr s => quoted s
    | RArr l => x5b :: commas (map text l) ++ [x5d]
    | RObj l => x7b :: commas (map (fun kv => quoted (fst kv) ++ x3a :: text (snd kv)) l) ++ [x7d]
    end.

  (** ** Reading *)

  (** serde_json [parse_whitespace]. *)
  Definition ws (b : byte) : bool := beq b x20 || beq b x0a || beq b x09 || beq b x0d.
  Fixpoint skip (s : list byte) : list byte :=
    match s with b :: r => if ws b then skip r else s | [] => [] end.

  (** [b'0'..=b'9']. *)
  Definition is_digit (b : byte) : bool := (48 <=? bN b)%N && (bN b <=? 57)%N.
  Fixpoint digits (s : list byte) : list byte * list byte :=
    match s with
    | b :: r => if is_digit b then let (d, r') := digits r in (b :: d, r') else ([], s)
    | [] => ([], [])
    end.
  (** The number some digits stand for. *)
  Definition value_of (d : list byte) : N := fold_left (fun a b => a * 10 + (bN b - 48))%N d 0%N.

  (** The optional fraction and exponent: [None] if malformed. *)
  Definition fraction (s : list byte) : option (list byte * list byte) :=
    match s with
    | b :: r => if beq b x2e then let (d, r') := digits r in match d with [] => None | _ => Some (b :: d, r') end else Some ([], s)
    | [] => Some ([], [])
    end.
  Definition exponent (s : list byte) : option (list byte * list byte) :=
    match s with
    | b :: r =>
      if beq b x65 || beq b x45 then
        let (sg, r1) := match r with c :: r1 => if beq c x2b || beq c x2d then ([c], r1) else ([], r) | [] => ([], r) end in
        let (d, r2) := digits r1 in match d with [] => None | _ => Some (b :: sg ++ d, r2) end
      else Some ([], s)
    | [] => Some ([], [])
    end.
  (** serde_json [parse_decimal], [parse_exponent], [f64_long_from_parts]: parameter [fread]. *)
  Definition floating (t : list byte) (r : list byte) : option (raw * list byte) :=
    match fread t with Some b => Some (RFlt b, r) | None => None end.
  (** An integer without fraction and exponent is read exactly if it fits [u64]
      ([i64] if negative); [-0] and larger ones become floats.  No leading
      zeros. *)
  Definition number (s : list byte) : option (raw * list byte) :=
    let (neg, s1) := match s with b :: r => if beq b x2d then (true, r) else (false, s) | [] => (false, s) end in
    let (d, s2) := digits s1 in
    match d with
    | [] => None
    | z :: more =>
      if beq z x30 && negb (match more with [] => true | _ => false end) then None else
      match fraction s2 with
      | None => None
      | Some (fr, s3) =>
        match exponent s3 with
        | None => None
        | Some (ex, s4) =>
          let t := (if neg then [x2d] else []) ++ d ++ fr ++ ex in
          match fr, ex with
          | [], [] =>
            let n := value_of d in
            if neg then if (0 <? n)%N && (n <=? 2 ^ 63)%N then Some (RNeg (- Z.of_N n), s4) else floating t s4
            else if (n <? 2 ^ 64)%N then Some (RPos n, s4) else floating t s4
          | _, _ => floating t s4
          end
        end
      end
    end.

  (** serde_json [decode_hex_val]. *)
  Definition hexval (b : byte) : option N :=
    let n := bN b in
    if (48 <=? n)%N && (n <=? 57)%N then Some (n - 48)%N
    else if (97 <=? n)%N && (n <=? 102)%N then Some (n - 87)%N
    else if (65 <=? n)%N && (n <=? 70)%N then Some (n - 55)%N else None.
  (** serde_json [decode_hex_escape]. *)
  Definition hex4 (a b c d : byte) : option N :=
    match hexval a, hexval b, hexval c, hexval d with
    | Some a, Some b, Some c, Some d => Some (a * 4096 + b * 256 + c * 16 + d)%N
    | _, _, _, _ => None
    end.
  (** serde_json [parse_escape]. *)
  Definition unesc (b : byte) : option byte :=
    match b with
    | x22 => Some x22 | x5c => Some x5c | x2f => Some x2f | x62 => Some x08 | x66 => Some x0c
    | x6e => Some x0a | x72 => Some x0d | x74 => Some x09 | _ => None
    end.
  (** Text read before. *)
  Definition also (p : list byte) (o : option (list byte * list byte)) : option (list byte * list byte) :=
    match o with Some (s, r) => Some (p ++ s, r) | None => None end.

  (** The rest of a string after the opening quote.  Unescaped control
      characters and lone surrogates are errors. *)
  Fixpoint chars (s : list byte) : option (list byte * list byte) :=
    match s with
    | [] => None
    | b :: r =>
      if beq b x22 then Some ([], r)
      else if beq b x5c then
        match r with
        | [] => None
        | c :: r1 =>
          if beq c x75 then
            match r1 with
            | h1 :: h2 :: h3 :: h4 :: r2 =>
              match hex4 h1 h2 h3 h4 with
              | None => None
              | Some n =>
                if (0xD800 <=? n)%N && (n <=? 0xDBFF)%N then
                  match r2 with
                  | b1 :: b2 :: g1 :: g2 :: g3 :: g4 :: r3 =>
                    if beq b1 x5c && beq b2 x75 then
                      match hex4 g1 g2 g3 g4 with
                      | Some m =>
                        if (0xDC00 <=? m)%N && (m <=? 0xDFFF)%N
                        then also (utf8_enc (0x10000 + (n - 0xD800) * 1024 + (m - 0xDC00))) (chars r3)
                        else None
                      | None => None
                      end
                    else None
                  | _ => None
                  end
                else if (0xDC00 <=? n)%N && (n <=? 0xDFFF)%N then None
                else also (utf8_enc n) (chars r2)
              end
            | _ => None
            end
          else match unesc c with Some x => also [x] (chars r1) | None => None end
        end
      else if (bN b <? 32)%N then None
      else also [b] (chars r)
    end.
  (** The bytes of a string must be UTF-8. *)
  Definition string (s : list byte) : option (list byte * list byte) :=
    match chars s with Some (t, r) => if utf8_valid t then Some (t, r) else None | None => None end.

  (** serde_json [parse_ident]. *)
  Fixpoint lit (w s : list byte) : option (list byte) :=
    match w with
    | [] => Some s
    | x :: w => match s with y :: s => if beq x y then lit w s else None | [] => None end
    end.
  Definition word (w s : list byte) (v : raw) : option (raw * list byte) :=
    match lit w s with Some r => Some (v, r) | None => None end.

  (** [Map::insert] ([BTreeMap]): a later duplicate key replaces the value. *)
  Fixpoint put (k : list byte) (v : raw) (l : list (list byte * raw)) : list (list byte * raw) :=
    match l with
    | [] => [(k, v)]
    | (k', v') :: r => match cmp k k' with Lt => (k, v) :: l | Eq => (k, v) :: r | Gt => (k', v') :: put k v r end
    end.
  Definition map_of (l : list (list byte * raw)) : list (list byte * raw) := fold_left (fun m kv => put (fst kv) (snd kv) m) l [].

  (** One value from the front of the input.  [d] is the remaining depth:
      entering an array or object decreases it, and reaching 0 is an error
      ("recursion limit exceeded").  [f] bounds the number of calls. *)
  Fixpoint value (f d : nat) (s : list byte) : option (raw * list byte) :=
    match f with
    | O => None
    | S f =>
      match skip s with
      | [] => None
      | b :: r =>
        if beq b x6e then word [x75; x6c; x6c] r RNull
        else if beq b x74 then word [x72; x75; x65] r (RBool true)
        else if beq b x66 then word [x61; x6c; x73; x65] r (RBool false)
        else if beq b x22 then match string r with Some (t, r') => Some (RStr t, r') | None => None end
        else if beq b x5b then
          if (d <=? 1)%nat then None else
          match skip r with
          | [] => None
          | c :: r1 => if beq c x5d then Some (RArr [], r1)
                       else match elements f (pred d) r with Some (l, r2) => Some (RArr l, r2) | None => None end
          end
        else if beq b x7b then
          if (d <=? 1)%nat then None else
          match skip r with
          | [] => None
          | c :: r1 => if beq c x7d then Some (RObj [], r1)
                       else match members f (pred d) r with Some (l, r2) => Some (RObj (map_of l), r2) | None => None end
          end
        else if beq b x2d || is_digit b then number (b :: r)
        else None
      end
    end
  (** Elements up to the closing bracket. *)
  with elements (f d : nat) (s : list byte) : option (list raw * list byte) :=
    match f with
    | O => None
    | S f =>
      match value f d s with
      | None => None
      | Some (v, r) =>
        match skip r with
        | [] => None
        | c :: r1 =>
          if beq c x5d then Some ([v], r1)
          else if beq c x2c then match elements f d r1 with Some (l, r2) => Some (v :: l, r2) | None => None end
          else None
        end
      end
    end
  (** Members up to the closing brace. *)
  with members (f d : nat) (s : list byte) : option (list (list byte * raw) * list byte) :=
    match f with
    | O => None
    | S f =>
      match skip s with
      | [] => None
      | q :: r0 =>
        if beq q x22 then
          match string r0 with
          | None => None
          | Some (k, r) =>
            match skip r with
            | [] => None
            | c :: r1 =>
              if beq c x3a then
                match value f d r1 with
                | None => None
                | Some (v, r2) =>
                  match skip r2 with
                  | [] => None
                  | c2 :: r3 =>
                    if beq c2 x7d then Some ([(k, v)], r3)
                    else if beq c2 x2c then match members f d r3 with Some (l, r4) => Some ((k, v) :: l, r4) | None => None end
                    else None
                  end
                end
              else None
            end
          end
        else None
      end
    end.

  (** The whole input is one value; the limit is 128. *)
  Definition read (s : list byte) : option raw :=
    match value (2 * length s + 2) 128 s with
    | Some (v, r) => match skip r with [] => Some v | _ => None end
    | None => None
    end.

  (** [serde_json::to_vec] (rdb/managers.rs 365-380; proto/src/converters.rs 104-108). *)
  Definition to_text (v : json) : list byte := text (jraw v).
  (** The test is always true (see [read_wf] below). *)
  Definition of_text (s : list byte) : option json :=
    match read s with
    | Some v => match Bool.bool_dec (wf_raw v) true with left E => Some (exist _ v E) | right _ => None end
    | None => None
    end.

  (** ** Values that survive *)

  (** Nesting of arrays and objects. *)
  Fixpoint depth (v : raw) : nat :=
    match v with
    | RArr l => S (list_max (map depth l))
    | RObj l => S (list_max (map (fun kv => depth (snd kv)) l))
    | _ => 0
    end.
  Fixpoint floats (v : raw) : list N :=
    match v with
    | RFlt b => [b]
    | RArr l => flat_map floats l
    | RObj l => flat_map (fun kv => floats (snd kv)) l
    | _ => []
    end.

  (** What cannot continue a number. *)
  Definition stops (r : list byte) : Prop :=
    match r with [] => True | b :: _ => is_digit b = false /\ beq b x2e = false /\ beq b x65 = false /\ beq b x45 = false end.
  (** The float [b] is read back from its text. *)
  Definition float_ok (b : N) : Prop :=
    (exists c t, fmt b = c :: t /\ (beq c x2d || is_digit c) = true) /\
    forall r, stops r -> number (fmt b ++ r) = Some (RFlt b, r).

  (** *** Proofs *)

  Lemma beq_refl b : beq b b = true.
  Proof. apply N.eqb_refl. Qed.

  Lemma chars_esc b t : chars (esc b ++ t) = also [b] (chars t).
  Proof. destruct b; cbn -[chars]; cbn; destruct (chars t) as [[]|]; reflexivity. Qed.

  Lemma chars_quoted s r : chars (flat_map esc s ++ x22 :: r) = Some (s, r).
  Proof.
    induction s as [|b s IH]; [reflexivity|]. cbn [flat_map]. rewrite <- app_assoc, chars_esc, IH. reflexivity.
  Qed.
  Lemma string_quoted s r : utf8_valid s = true -> string (flat_map esc s ++ x22 :: r) = Some (s, r).
  Proof. intros U. unfold string. now rewrite chars_quoted, U. Qed.

  Lemma digit_bN k : (k < 10)%N -> bN (digit k) = (48 + k)%N.
  Proof. intros L. unfold digit. apply bN_small. lia. Qed.
  Lemma digit_is k : (k < 10)%N -> is_digit (digit k) = true.
  Proof. intros L. unfold is_digit. rewrite (digit_bN L). rewrite !(proj2 (N.leb_le _ _)) by lia. reflexivity. Qed.

  Lemma dec_aux_spec fuel : forall n acc, (n < 10 ^ N.of_nat fuel)%N -> fuel <> 0 ->
    exists z ds, dec_aux fuel n acc = (z :: ds) ++ acc /\ forallb is_digit (z :: ds) = true /\
      fold_left (fun a b => a * 10 + (bN b - 48))%N (z :: ds) 0%N = n /\ (beq z x30 = true -> ds = [] /\ n = 0%N).
  Proof.
    induction fuel as [|fuel IH]; intros n acc L F; [congruence|]. cbn [dec_aux].
    destruct (N.ltb_spec n 10) as [L10|L10].
    - exists (digit (n mod 10)), []. rewrite N.mod_small by assumption. conj; auto.
      + cbn. now rewrite digit_is.
      + cbn [fold_left]. rewrite digit_bN by assumption. lia.
      + intros B. split; [reflexivity|]. unfold beq in B. rewrite digit_bN in B by assumption. apply N.eqb_eq in B.
        change (bN x30) with 48%N in B. lia.
    - destruct fuel as [|fuel].
      { exfalso. cbn in L. lia. }
      rewrite Nat2N.inj_succ, N.pow_succ_r' in L.
      destruct (IH (n / 10)%N (digit (n mod 10) :: acc)) as (z & ds & E & D & V & Z); [apply N.div_lt_upper_bound; lia|lia|].
      exists z, (ds ++ [digit (n mod 10)]). rewrite E. conj.
      + cbn [app]. now rewrite <- app_assoc.
      + change (z :: ds ++ [digit (n mod 10)]) with ((z :: ds) ++ [digit (n mod 10)]). rewrite forallb_app, D. cbn.
        rewrite digit_is by (apply N.mod_lt; lia). reflexivity.
      + change (z :: ds ++ [digit (n mod 10)]) with ((z :: ds) ++ [digit (n mod 10)]). rewrite fold_left_app, V. cbn [fold_left].
        rewrite digit_bN by (apply N.mod_lt; lia). pose proof (N.div_mod n 10 ltac:(lia)). lia.
      + intros B. destruct (Z B) as [_ B0]. exfalso. apply N.div_small_iff in B0; lia.
  Qed.

  Lemma decimal_spec n : exists z ds, decimal n = z :: ds /\ forallb is_digit (z :: ds) = true /\
    value_of (z :: ds) = n /\ (beq z x30 = true -> ds = [] /\ n = 0%N).
  Proof.
    destruct (@dec_aux_spec (S (N.to_nat (N.log2 n))) n []) as (z & ds & E & R).
    - rewrite Nat2N.inj_succ, N2Nat.id.
      apply N.lt_le_trans with (2 ^ N.succ (N.log2 n))%N.
      + destruct (N.eq_dec n 0) as [->|Ne]; [reflexivity|]. apply N.log2_spec. lia.
      + apply N.pow_le_mono_l. lia.
    - lia.
    - rewrite app_nil_r in E. exists z, ds. split; [exact E|exact R].
  Qed.

  Lemma digits_app d r : forallb is_digit d = true -> (match r with b :: _ => is_digit b = false | [] => True end) -> digits (d ++ r) = (d, r).
  Proof.
    induction d as [|b d IH]; intros D N; cbn.
    - destruct r as [|b r]; [reflexivity|]. cbn. now rewrite N.
    - cbn in D. apply andb_true_iff in D as [B D]. now rewrite B, IH.
  Qed.

  Lemma no_fraction r : stops r -> fraction r = Some ([], r).
  Proof. destruct r as [|b r]; [reflexivity|]. intros (_ & P & _). cbn. now rewrite P. Qed.
  Lemma no_exponent r : stops r -> exponent r = Some ([], r).
  Proof. destruct r as [|b r]; [reflexivity|]. intros (_ & _ & E1 & E2). cbn. now rewrite E1, E2. Qed.
  Lemma stops_digit r : stops r -> match r with b :: _ => is_digit b = false | [] => True end.
  Proof. destruct r; cbn; tauto. Qed.
  Lemma digit_not_minus z : is_digit z = true -> beq z x2d = false.
  Proof. unfold is_digit, beq. intros D. apply andb_true_iff in D as [D _]. apply N.leb_le in D. apply N.eqb_neq. change (bN x2d) with 45%N. lia. Qed.

  Lemma number_pos n r : (n < 2 ^ 64)%N -> stops r -> number (decimal n ++ r) = Some (RPos n, r).
  Proof.
    intros L St0. destruct (decimal_spec n) as (z & ds & E & D & V & Z0). rewrite E. unfold number. cbn [app].
    assert (is_digit z = true) as Dz by (cbn in D; now apply andb_true_iff in D).
    rewrite (digit_not_minus _ Dz). change (z :: ds ++ r) with ((z :: ds) ++ r).
    rewrite (@digits_app (z :: ds) r D (stops_digit _ St0)).
    assert (beq z x30 && negb match ds with [] => true | _ :: _ => false end = false) as ->.
    { destruct (beq z x30); [|reflexivity]. destruct (Z0 eq_refl) as [-> _]. reflexivity. }
    rewrite (no_fraction _ St0), (no_exponent _ St0), V. now rewrite (proj2 (N.ltb_lt _ _) L).
  Qed.

  Lemma number_neg z r : (- 2 ^ 63 <= z < 0)%Z -> stops r -> number (x2d :: decimal (Z.to_N (- z)) ++ r) = Some (RNeg z, r).
  Proof.
    intros L St0. destruct (decimal_spec (Z.to_N (- z))) as (y & ds & E & D & V & Z0). rewrite E. unfold number.
    cbn [app]. rewrite beq_refl. change (y :: ds ++ r) with ((y :: ds) ++ r).
    rewrite (@digits_app (y :: ds) r D (stops_digit _ St0)).
    assert (beq y x30 && negb match ds with [] => true | _ :: _ => false end = false) as ->.
    { destruct (beq y x30); [|reflexivity]. destruct (Z0 eq_refl) as [-> _]. reflexivity. }
    rewrite (no_fraction _ St0), (no_exponent _ St0), V.
    rewrite (proj2 (N.ltb_lt 0 (Z.to_N (- z)))) by lia.
    rewrite (proj2 (N.leb_le (Z.to_N (- z)) (2 ^ 63))) by lia. cbn. do 3 f_equal. lia.
  Qed.

  (** Objects *)
  Lemma put_last k v l : Forall (fun kv => ltb (fst kv) k = true) l -> put k v l = l ++ [(k, v)].
  Proof.
    induction l as [|[k' v'] l IH]; intros F; [reflexivity|]. inversion F as [|? ? L F']; subst. cbn in L. cbn.
    rewrite cmp_antisym. unfold ltb in L. destruct (cmp k' k); try discriminate. cbn. now rewrite IH.
  Qed.
  Lemma map_of_asc l : keys_ascb (map fst l) = true -> map_of l = l.
  Proof.
    unfold map_of. assert (forall l a, keys_ascb (map fst (a ++ l)) = true -> fold_left (fun m kv => put (fst kv) (snd kv) m) l a = a ++ l) as G;
      [|intros A; exact (G l [] A)].
    clear l. induction l as [|[k v] l IH]; intros a A; cbn [fold_left]; [now rewrite app_nil_r|]. cbn [fst snd].
    rewrite put_last.
    - rewrite IH; rewrite <- app_assoc; [reflexivity|exact A].
    - clear IH. apply Forall_forall. intros [k' v'] Hin. cbn [fst]. apply in_split in Hin as (a1 & a2 & ->).
      rewrite <- app_assoc in A. cbn [app] in A. rewrite map_app in A. cbn [map fst] in A.
      assert (forall p k0 q k1 t, keys_ascb (p ++ k0 :: q ++ k1 :: t) = true -> ltb k0 k1 = true) as Asc.
      { clear. intros p k0 q k1 t A. assert (keys_ascb (k0 :: q ++ k1 :: t) = true) as B.
        { induction p as [|x p IH]; [exact A|]. apply IH. cbn [app keys_ascb] in A. destruct (p ++ k0 :: q ++ k1 :: t) eqn:E; [destruct p; discriminate|].
          apply andb_true_iff in A as [_ A]. exact A. }
        clear A p. revert k0 B. induction q as [|y q IH]; intros k0 B.
        - cbn [app keys_ascb] in B. now apply andb_true_iff in B.
        - cbn [app] in B. cbn [keys_ascb] in B. apply andb_true_iff in B as [B1 B2]. specialize (IH y B2).
          unfold ltb in *. destruct (cmp k0 y) eqn:C1; try discriminate. destruct (cmp y k1) eqn:C2; try discriminate.
          now rewrite (cmp_lt_trans _ _ _ C1 C2). }
      rewrite map_app in A. cbn [map fst] in A. exact (Asc _ _ _ _ _ A).
  Qed.

  (** Nested induction. *)
  Lemma raw_nested (P : raw -> Prop) :
    P RNull -> (forall b, P (RBool b)) -> (forall n, P (RPos n)) -> (forall z, P (RNeg z)) -> (forall b, P (RFlt b)) ->
    (forall s, P (RStr s)) -> (forall l, Forall P l -> P (RArr l)) -> (forall l, Forall (fun kv => P (snd kv)) l -> P (RObj l)) ->
    forall v, P v.
  Proof.
    intros P0 P1 P2 P3 P4 P5 P6 P7. fix IH 1. intros [ |b|n|z|b|s|l|l].
    - exact P0.
    - apply P1.
    - apply P2.
    - apply P3.
    - apply P4.
    - apply P5.
    - apply P6. induction l as [|x l IHl]; constructor; [apply IH|exact IHl].
    - apply P7. induction l as [|x l IHl]; constructor; [apply IH|exact IHl].
  Qed.

  (** Calls needed to read a value. *)
  Fixpoint weight (v : raw) : nat :=
    match v with
    | RArr l => S (list_sum (map (fun x => S (weight x)) l))
    | RObj l => S (list_sum (map (fun kv => S (weight (snd kv))) l))
    | _ => 1
    end.

  Lemma commas_length l : l <> [] -> S (length (commas l)) = list_sum (map (fun x => S (length x)) l).
  Proof.
    induction l as [|x l IH]; intros Ne; [congruence|]. destruct l as [|y l]; [cbn; lia|].
    change (commas (x :: y :: l)) with (x ++ x2c :: commas (y :: l)). rewrite app_length. cbn [length].
    rewrite (IH ltac:(discriminate)). cbn [map list_sum fold_right]. lia.
  Qed.
  Lemma sum_le {A} (f g : A -> nat) l : Forall (fun x => f x <= g x) l -> list_sum (map f l) <= list_sum (map g l).
  Proof. induction 1; cbn; [lia|]. unfold list_sum in *. lia. Qed.

  Lemma weight_length v : (forall b, In b (floats v) -> fmt b <> []) -> weight v <= length (text v).
  Proof.
    induction v as [|b|n|z|b|s|l IH|l IH] using raw_nested; intros F; cbn [weight text].
    - cbn; lia.
    - destruct b; cbn; lia.
    - destruct (decimal_spec n) as (x & ds & -> & _). cbn; lia.
    - cbn; lia.
    - specialize (F b (or_introl eq_refl)). destruct (fmt b); [congruence|cbn; lia].
    - cbn; lia.
    - cbn [length]. rewrite app_length. cbn [length]. destruct l as [|v l]; [cbn; lia|]. remember (v :: l) as l0 eqn:El.
      assert (l0 <> []) as Ne by (subst; discriminate). clear El v l.
      assert (list_sum (map (fun x => S (weight x)) l0) <= list_sum (map (fun x => S (length (text x))) l0)) as Le.
      { apply sum_le. rewrite Forall_forall in IH |- *. intros x Hx. enough (weight x <= length (text x)) by lia. apply (IH x Hx). intros b Hb.
        apply F. cbn [floats]. apply in_flat_map. eauto. }
      pose proof (@commas_length (map text l0)) as C. rewrite map_map in C. rewrite <- C in Le by (destruct l0; [congruence|discriminate]). lia.
    - cbn [length]. rewrite app_length. cbn [length]. destruct l as [|v l]; [cbn; lia|]. remember (v :: l) as l0 eqn:El.
      assert (l0 <> []) as Ne by (subst; discriminate). clear El v l.
      assert (list_sum (map (fun x => S (weight (snd x))) l0) <= list_sum (map (fun x => S (length (quoted (fst x) ++ x3a :: text (snd x)))) l0)) as Le.
      { apply sum_le. rewrite Forall_forall in IH |- *. intros x Hx. rewrite app_length. cbn [length].
        enough (weight (snd x) <= length (text (snd x))) by lia. apply (IH x Hx). intros b Hb.
        apply F. cbn [floats]. apply in_flat_map. eauto. }
      pose proof (@commas_length (map (fun kv => quoted (fst kv) ++ x3a :: text (snd kv)) l0)) as C. rewrite map_map in C.
      rewrite <- C in Le by (destruct l0; [congruence|discriminate]). lia.
  Qed.

  Definition starts (c : byte) : Prop := ws c = false.
  Lemma number_start c : (beq c x2d || is_digit c) = true ->
    ws c = false /\ beq c x6e = false /\ beq c x74 = false /\ beq c x66 = false /\ beq c x22 = false /\ beq c x5b = false /\ beq c x7b = false /\
    beq c x5d = false.
  Proof. destruct c; vm_compute; intros X; try discriminate X; conj; reflexivity. Qed.

  Lemma text_start v : Forall float_ok (floats v) -> exists c t, text v = c :: t /\ ws c = false /\ beq c x5d = false.
  Proof.
    intros F. destruct v as [|b|n|z|b|s|l|l]; cbn [text].
    - do 2 eexists. conj; reflexivity.
    - destruct b; do 2 eexists; conj; reflexivity.
    - destruct (decimal_spec n) as (x & ds & -> & D & _). exists x, ds. cbn in D. apply andb_true_iff in D as [D _].
      destruct (@number_start x) as (A & _ & _ & _ & _ & _ & _ & B); [rewrite D; apply orb_true_r|]. auto.
    - do 2 eexists. conj; reflexivity.
    - inversion F as [|? ? [(c & t & E & S0) _] _]; subst. exists c, t. destruct (@number_start c S0) as (A & _ & _ & _ & _ & _ & _ & B). auto.
    - do 2 eexists. conj; reflexivity.
    - do 2 eexists. conj; reflexivity.
    - do 2 eexists. conj; reflexivity.
  Qed.

  Lemma skip_id c r : ws c = false -> skip (c :: r) = c :: r.
  Proof. intros W. cbn. now rewrite W. Qed.

  Definition reads (v : raw) : Prop := forall d f r, depth v < d -> weight v <= f -> stops r -> value f d (text v ++ r) = Some (v, r).

  Lemma elements_text l : l <> [] -> Forall (fun v => reads v /\ Forall float_ok (floats v)) l ->
    forall d f r, list_max (map depth l) < d -> list_sum (map (fun x => S (weight x)) l) <= f ->
    elements f d (commas (map text l) ++ x5d :: r) = Some (l, r).
  Proof.
    induction l as [|v l IH]; intros Ne F d f r Dd Wf; [congruence|]. inversion F as [|? ? [Rv Fv] Fl]; subst.
    change (list_max (map depth (v :: l))) with (Nat.max (depth v) (list_max (map depth l))) in Dd.
    change (list_sum (map (fun x => S (weight x)) (v :: l))) with (S (weight v) + list_sum (map (fun x => S (weight x)) l)) in Wf.
    destruct f as [|f]; [lia|]. destruct l as [|w l].
    - cbn [map commas]. cbn [elements]. rewrite (Rv d f (x5d :: r)); [|lia|lia|cbn; conj; reflexivity].
      rewrite skip_id by reflexivity. now rewrite beq_refl.
    - change (commas (map text (v :: w :: l))) with (text v ++ x2c :: commas (map text (w :: l))). rewrite <- app_assoc. cbn [app].
      cbn [elements]. rewrite (Rv d f); [|lia|lia|cbn; conj; reflexivity].
      rewrite skip_id by reflexivity. change (beq x2c x5d) with false. cbv iota. rewrite beq_refl.
      now rewrite (IH ltac:(discriminate) Fl) by (cbn; cbn in *; lia).
  Qed.

  Lemma members_text l : l <> [] ->
    Forall (fun kv => utf8_valid (fst kv) = true /\ reads (snd kv) /\ Forall float_ok (floats (snd kv))) l ->
    forall d f r, list_max (map (fun kv => depth (snd kv)) l) < d -> list_sum (map (fun kv => S (weight (snd kv))) l) <= f ->
    members f d (commas (map (fun kv => quoted (fst kv) ++ x3a :: text (snd kv)) l) ++ x7d :: r) = Some (l, r).
  Proof.
    induction l as [|[k v] l IH]; intros Ne F d f r Dd Wf; [congruence|]. inversion F as [|? ? (Uk & Rv & Fv) Fl]; subst. cbn [fst snd] in *.
    change (list_max (map (fun kv => depth (snd kv)) ((k, v) :: l))) with (Nat.max (depth v) (list_max (map (fun kv => depth (snd kv)) l))) in Dd.
    change (list_sum (map (fun kv => S (weight (snd kv))) ((k, v) :: l))) with (S (weight v) + list_sum (map (fun kv => S (weight (snd kv))) l)) in Wf.
    destruct f as [|f]; [lia|]. destruct l as [|w l].
    - cbn [map commas fst snd]. unfold quoted. cbn [app]. cbn [members]. rewrite skip_id by reflexivity. rewrite beq_refl.
      rewrite <- !app_assoc. cbn [app]. rewrite string_quoted by assumption. rewrite skip_id by reflexivity. rewrite beq_refl.
      rewrite (Rv d f (x7d :: r)); [|lia|lia|cbn; conj; reflexivity].
      rewrite skip_id by reflexivity. now rewrite beq_refl.
    - set (g := fun kv : list byte * raw => quoted (fst kv) ++ x3a :: text (snd kv)) in *.
      change (commas (map g ((k, v) :: w :: l))) with (g (k, v) ++ x2c :: commas (map g (w :: l))).
      unfold g at 1. unfold quoted. cbn [app fst snd]. cbn [members]. rewrite skip_id by reflexivity. rewrite beq_refl.
      rewrite <- !app_assoc. cbn [app]. rewrite string_quoted by assumption. rewrite skip_id by reflexivity. rewrite beq_refl.
      rewrite (Rv d f); [|lia|lia|cbn; conj; reflexivity].
      rewrite skip_id by reflexivity. change (beq x2c x7d) with false. cbv iota. rewrite beq_refl.
      now rewrite (IH ltac:(discriminate) Fl) by (cbn; cbn in *; lia).
  Qed.

  Theorem value_text v : wf_raw v = true -> Forall float_ok (floats v) -> reads v.
  Proof.
    induction v as [|b|n|z|b|s|l IH|l IH] using raw_nested; intros W F d f r Dd Wf St0; destruct f as [|f]; try (cbn in Wf; lia).
    - reflexivity.
    - destruct b; reflexivity.
    - cbn [text]. pose proof (@number_pos n r) as X. destruct (decimal_spec n) as (x & ds & E & D & _). rewrite E in *. cbn [app] in *. cbn [value].
      cbn in D. apply andb_true_iff in D as [D _]. assert ((beq x x2d || is_digit x) = true) as Nx by (rewrite D; apply orb_true_r).
      destruct (@number_start x Nx) as (A1 & A2 & A3 & A4 & A5 & A6 & A7 & _). rewrite skip_id, A2, A3, A4, A5, A6, A7, Nx by assumption.
      apply X; [|assumption]. cbn in W. now apply N.ltb_lt.
    - cbn [text app value]. change (skip ("-"%byte :: decimal (Z.to_N (- z)) ++ r)) with ("-"%byte :: decimal (Z.to_N (- z)) ++ r).
      cbn -[number]. apply number_neg; [|assumption]. cbn in W. apply andb_true_iff in W as [W1 W2]. apply Z.leb_le in W1. apply Z.ltb_lt in W2. lia.
    - cbn [text]. inversion F as [|? ? [(x & t & E & Nx) X] _]; subst. specialize (X r St0). rewrite E in *. cbn [app] in *. cbn [value].
      destruct (@number_start x Nx) as (A1 & A2 & A3 & A4 & A5 & A6 & A7 & _). now rewrite skip_id, A2, A3, A4, A5, A6, A7, Nx by assumption.
    - cbn [text]. unfold quoted. cbn [app value]. rewrite skip_id by reflexivity. rewrite <- app_assoc. cbn [app].
      change (beq x22 x6e) with false. change (beq x22 x74) with false. change (beq x22 x66) with false. rewrite beq_refl. cbv iota.
      rewrite string_quoted by exact W. reflexivity.
    - cbn [depth] in Dd. cbn [weight] in Wf. cbn [text app value]. rewrite skip_id by reflexivity. rewrite <- app_assoc. cbn [app].
      change (beq x5b x6e) with false. change (beq x5b x74) with false. change (beq x5b x66) with false. change (beq x5b x22) with false. rewrite beq_refl. cbv iota.
      destruct (Nat.leb_spec d 1) as [L|L]; [lia|].
      destruct l as [|v l]; [reflexivity|]. remember (v :: l) as l0 eqn:El.
      assert (Forall (fun v => reads v /\ Forall float_ok (floats v)) l0) as Fl.
      { rewrite Forall_forall in IH |- *. intros x Hx. cbn [wf_raw] in W. rewrite forallb_forall in W.
        assert (Forall float_ok (floats x)) as Fx. { rewrite Forall_forall in F |- *. intros b Hb. apply F. cbn. apply in_flat_map. eauto. }
        split; [|exact Fx]. apply IH; auto. }
      assert (exists c t, commas (map text l0) ++ x5d :: r = c :: t /\ ws c = false /\ beq c x5d = false) as (c & t & E & Wc & Bc).
      { subst l0. inversion Fl as [|? ? [_ Fv] _]; subst. destruct (text_start v Fv) as (c & t & E & Wc & Bc). cbn [map commas].
        destruct (map text l); rewrite E; do 2 eexists; cbn [app]; conj; eauto. }
      rewrite E, (skip_id _ t Wc), Bc, <- E. rewrite (@elements_text l0); auto; [subst; discriminate|lia|lia].
    - cbn [depth] in Dd. cbn [weight] in Wf. cbn [text app value]. rewrite skip_id by reflexivity. rewrite <- app_assoc. cbn [app].
      change (beq x7b x6e) with false. change (beq x7b x74) with false. change (beq x7b x66) with false. change (beq x7b x22) with false.
      change (beq x7b x5b) with false. rewrite beq_refl. cbv iota.
      destruct (Nat.leb_spec d 1) as [L|L]; [lia|].
      destruct l as [|v l]; [reflexivity|]. remember (v :: l) as l0 eqn:El. cbn [wf_raw] in W. apply andb_true_iff in W as [Asc W].
      assert (Forall (fun kv => utf8_valid (fst kv) = true /\ reads (snd kv) /\ Forall float_ok (floats (snd kv))) l0) as Fl.
      { rewrite Forall_forall in IH |- *. intros x Hx. rewrite forallb_forall in W. specialize (W x Hx). apply andb_true_iff in W as [Ux Wx].
        assert (Forall float_ok (floats (snd x))) as Fx. { rewrite Forall_forall in F |- *. intros b Hb. apply F. cbn. apply in_flat_map. eauto. }
        conj; auto. }
      set (g := fun kv : list byte * raw => quoted (fst kv) ++ x3a :: text (snd kv)) in *.
      assert (exists t, commas (map g l0) ++ x7d :: r = x22 :: t) as (t & E).
      { subst l0. cbn [map commas]. destruct (map g l); unfold g, quoted; cbn [app]; eauto. }
      rewrite E. rewrite skip_id by reflexivity. change (beq x22 x7d) with false. cbv iota. rewrite <- E. unfold g.
      rewrite (@members_text l0); auto; [|subst; discriminate|lia|lia]. now rewrite map_of_asc.
  Qed.

  Theorem of_text_to_text (v : json) : Forall float_ok (floats (jraw v)) -> depth (jraw v) <= 127 -> of_text (to_text v) = Some v.
  Proof.
    intros F D. destruct v as [v W]. unfold of_text, to_text, read, jraw in *. cbn [proj1_sig] in *.
    pose proof (@value_text v W F 128 (2 * length (text v) + 2) [] ltac:(lia)) as X.
    rewrite app_nil_r in X. rewrite X; [|
      enough (weight v <= length (text v)) by lia; apply weight_length; intros b Hb; rewrite Forall_forall in F; destruct (F b Hb) as [(c & t & -> & _) _]; discriminate
      |exact I].
    cbn [skip]. destruct (Bool.bool_dec (wf_raw v) true) as [E|E]; [|contradiction]. apply (f_equal Some). now apply (@bsub_eq raw wf_raw).
  Qed.

  (** *** Deeper values cannot be read *)
  Theorem value_too_deep v : wf_raw v = true -> Forall float_ok (floats v) ->
    forall d f r, 0 < d -> d <= depth v -> weight v <= f -> value f d (text v ++ r) = None.
  Proof.
    enough (wf_raw v = true -> Forall float_ok (floats v) -> (forall d f r, 0 < d -> d <= depth v -> weight v <= f -> value f d (text v ++ r) = None)) by auto.
    induction v as [|b|n|z|b|s|l IH|l IH] using raw_nested; intros W F d f r D0 Dd Wf; try (cbn in Dd; lia).
    - destruct f as [|f]; [reflexivity|]. cbn [depth] in Dd. cbn [weight] in Wf. cbn [text app value]. rewrite skip_id by reflexivity. rewrite <- app_assoc. cbn [app].
      change (beq x5b x6e) with false. change (beq x5b x74) with false. change (beq x5b x66) with false. change (beq x5b x22) with false. rewrite beq_refl. cbv iota.
      destruct (Nat.leb_spec d 1) as [L|L]; [reflexivity|].
      destruct l as [|v l]; [cbn in Dd; lia|]. remember (v :: l) as l0 eqn:El.
      assert (forall x, In x l0 -> Forall float_ok (floats x)) as Fx.
      { intros x Hx. rewrite Forall_forall in F |- *. intros b Hb. apply F. cbn. apply in_flat_map. eauto. }
      cbn [wf_raw] in W. rewrite forallb_forall in W.
      assert (exists c t, commas (map text l0) ++ x5d :: r = c :: t /\ ws c = false /\ beq c x5d = false) as (c & t & E & Wc & Bc).
      { subst l0. destruct (text_start v (Fx v (or_introl eq_refl))) as (c & t & E & Wc & Bc). cbn [map commas].
        destruct (map text l); rewrite E; do 2 eexists; cbn [app]; conj; eauto. }
      rewrite E, (skip_id _ t Wc), Bc, <- E.
      assert (l0 <> []) as Ne by (subst; discriminate). clear El E Wc Bc c t v l.
      assert (elements f (pred d) (commas (map text l0) ++ x5d :: r) = None) as ->; [|reflexivity].
      assert (0 < pred d) as D1 by lia. assert (pred d <= list_max (map depth l0)) as D2 by lia. clear D0 Dd L. revert D1 D2 Ne. generalize (pred d). clear d. intros d D1 D2 Ne.
      assert (list_sum (map (fun x => S (weight x)) l0) <= f) as Wf' by lia. clear Wf F. revert f Wf' r Ne D2.
      induction l0 as [|v l IHl]; intros f Wf r Ne Dd; [congruence|]. inversion IH as [|? ? Hv Hl]; subst.
      change (list_max (map depth (v :: l))) with (Nat.max (depth v) (list_max (map depth l))) in Dd.
      change (list_sum (map (fun x => S (weight x)) (v :: l))) with (S (weight v) + list_sum (map (fun x => S (weight x)) l)) in Wf.
      assert (wf_raw v = true) as Wv by (apply W; now left). assert (Forall float_ok (floats v)) as Fv by (apply Fx; now left).
      destruct f as [|f]; [reflexivity|]. destruct l as [|w l].
      + cbn [map commas]. cbn [elements]. rewrite (Hv Wv Fv d f (x5d :: r)); [reflexivity|lia|cbn in Dd; lia|lia].
      + change (commas (map text (v :: w :: l))) with (text v ++ x2c :: commas (map text (w :: l))). rewrite <- app_assoc. cbn [app]. cbn [elements].
        destruct (Nat.le_gt_cases d (depth v)) as [L|L]; [rewrite Hv; auto; lia|].
        rewrite (@value_text v Wv Fv d f); [|lia|lia|cbn; conj; reflexivity].
        rewrite skip_id by reflexivity. change (beq x2c x5d) with false. cbv iota. rewrite beq_refl.
        rewrite (IHl Hl (fun x Hx => W x (or_intror Hx)) (fun x Hx => Fx x (or_intror Hx)) f ltac:(lia) r ltac:(discriminate) ltac:(lia)). reflexivity.
    - destruct f as [|f]; [reflexivity|]. cbn [depth] in Dd. cbn [weight] in Wf. cbn [text app value]. rewrite skip_id by reflexivity. rewrite <- app_assoc. cbn [app].
      change (beq x7b x6e) with false. change (beq x7b x74) with false. change (beq x7b x66) with false. change (beq x7b x22) with false.
      change (beq x7b x5b) with false. rewrite beq_refl. cbv iota.
      destruct (Nat.leb_spec d 1) as [L|L]; [reflexivity|].
      destruct l as [|v l]; [cbn in Dd; lia|]. remember (v :: l) as l0 eqn:El.
      assert (forall x, In x l0 -> Forall float_ok (floats (snd x))) as Fx.
      { intros x Hx. rewrite Forall_forall in F |- *. intros b Hb. apply F. cbn. apply in_flat_map. eauto. }
      cbn [wf_raw] in W. apply andb_true_iff in W as [_ W]. rewrite forallb_forall in W.
      set (g := fun kv : list byte * raw => quoted (fst kv) ++ x3a :: text (snd kv)) in *.
      assert (exists t, commas (map g l0) ++ x7d :: r = x22 :: t) as (t & E).
      { subst l0. cbn [map commas]. destruct (map g l); unfold g, quoted; cbn [app]; eauto. }
      rewrite E. rewrite skip_id by reflexivity. change (beq x22 x7d) with false. cbv iota. rewrite <- E.
      assert (l0 <> []) as Ne by (subst; discriminate). clear El E t v l.
      assert (members f (pred d) (commas (map g l0) ++ x7d :: r) = None) as ->; [|reflexivity].
      assert (0 < pred d) as D1 by lia. assert (pred d <= list_max (map (fun kv => depth (snd kv)) l0)) as D2 by lia. clear D0 Dd L. revert D1 D2 Ne. generalize (pred d). clear d. intros d D1 D2 Ne.
      assert (list_sum (map (fun x => S (weight (snd x))) l0) <= f) as Wf' by lia. clear Wf F. revert f Wf' r Ne D2.
      induction l0 as [|[k v] l IHl]; intros f Wf r Ne Dd; [congruence|]. inversion IH as [|? ? Hv Hl]; subst. cbn [snd] in Hv.
      change (list_max (map (fun kv => depth (snd kv)) ((k, v) :: l))) with (Nat.max (depth v) (list_max (map (fun kv => depth (snd kv)) l))) in Dd.
      change (list_sum (map (fun kv => S (weight (snd kv))) ((k, v) :: l))) with (S (weight v) + list_sum (map (fun kv => S (weight (snd kv))) l)) in Wf.
      assert (Forall float_ok (floats v)) as Fv by (apply (Fx (k, v)); now left).
      pose proof (W (k, v) (or_introl eq_refl)) as Wk. cbn [fst snd] in Wk. apply andb_true_iff in Wk as [Uk Wv].
      destruct f as [|f]; [reflexivity|]. destruct l as [|w l].
      + cbn [map commas]. unfold g, quoted. cbn [app fst snd members]. rewrite skip_id by reflexivity. rewrite beq_refl.
        rewrite <- !app_assoc. cbn [app]. rewrite string_quoted by assumption. rewrite skip_id by reflexivity. rewrite beq_refl.
        rewrite (Hv Wv Fv d f (x7d :: r)); [reflexivity|lia|cbn in Dd; lia|lia].
      + change (commas (map g ((k, v) :: w :: l))) with (g (k, v) ++ x2c :: commas (map g (w :: l))).
        unfold g at 1. unfold quoted. cbn [app fst snd members]. rewrite skip_id by reflexivity. rewrite beq_refl.
        rewrite <- !app_assoc. cbn [app]. rewrite string_quoted by assumption. rewrite skip_id by reflexivity. rewrite beq_refl.
        destruct (Nat.le_gt_cases d (depth v)) as [L|L]; [rewrite Hv; auto; lia|].
        rewrite (@value_text v Wv Fv d f); [|lia|lia|cbn; conj; reflexivity].
        rewrite skip_id by reflexivity. change (beq x2c x7d) with false. cbv iota. rewrite beq_refl.
        rewrite (IHl Hl (fun x Hx => W x (or_intror Hx)) (fun x Hx => Fx x (or_intror Hx)) f ltac:(lia) r ltac:(discriminate) ltac:(lia)). reflexivity.
  Qed.

  Theorem of_text_too_deep (v : json) : Forall float_ok (floats (jraw v)) -> 128 <= depth (jraw v) -> of_text (to_text v) = None.
  Proof.
    intros F D. destruct v as [v W]. unfold of_text, to_text, read, jraw in *. cbn [proj1_sig] in *.
    pose proof (@value_too_deep v W F 128 (2 * length (text v) + 2) [] ltac:(lia) D) as X.
    rewrite app_nil_r in X. rewrite X; [reflexivity|].
    enough (weight v <= length (text v)) by lia. apply weight_length. intros b Hb. rewrite Forall_forall in F. destruct (F b Hb) as [(c & t & -> & _) _]. discriminate.
  Qed.

  (** *** The bound on the number of calls does not matter *)

  Lemma skip_length s : length (skip s) <= length s.
  Proof. induction s as [|b s IH]; cbn; [lia|]. destruct (ws b); cbn; lia. Qed.
  Lemma skip_cons s b r : skip s = b :: r -> length r < length s.
  Proof. intros E. pose proof (skip_length s) as L. rewrite E in L. cbn in L. lia. Qed.
  Lemma lit_length w : forall s r, lit w s = Some r -> length r <= length s.
  Proof.
    induction w as [|x w IH]; intros s r E; cbn in E; [inversion E; subst; lia|]. destruct s as [|y s]; [discriminate|].
    destruct (beq x y); [|discriminate]. apply IH in E. cbn. lia.
  Qed.
  Lemma chars_length n : forall s t r, length s <= n -> chars s = Some (t, r) -> length r < length s.
  Proof.
    induction n as [|n IH]; intros s t r L E; [destruct s; [discriminate|cbn in L; lia]|].
    assert (forall s' p, also p (chars s') = Some (t, r) -> S (length s') <= length s -> length r < length s) as Al.
    { intros s' p A L'. destruct (chars s') as [[t' r']|] eqn:C; [|discriminate]. cbn in A. inversion A; subst. apply IH in C; lia. }
    destruct s as [|b s1]; [discriminate|]. cbn [chars] in E. destruct (beq b x22); [inversion E; subst; cbn; lia|].
    destruct (beq b x5c).
    2:{ destruct (bN b <? 32)%N; [discriminate|]. eapply Al; [exact E|cbn; lia]. }
    destruct s1 as [|c s2]; [discriminate|]. destruct (beq c x75).
    2:{ destruct (unesc c); [|discriminate]. eapply Al; [exact E|cbn; lia]. }
    destruct s2 as [|h1 [|h2 [|h3 [|h4 s3]]]]; try discriminate. destruct (hex4 h1 h2 h3 h4); [|discriminate].
    destruct (_ && _)%bool.
    2:{ destruct (_ && _)%bool; [discriminate|]. eapply Al; [exact E|cbn; lia]. }
    destruct s3 as [|b1 [|b2 [|g1 [|g2 [|g3 [|g4 s4]]]]]]; try discriminate. destruct (_ && _)%bool; [|discriminate].
    destruct (hex4 g1 g2 g3 g4); [|discriminate]. destruct (_ && _)%bool; [|discriminate]. eapply Al; [exact E|cbn; lia].
  Qed.
  Lemma string_length s t r : string s = Some (t, r) -> length r < length s.
  Proof.
    unfold string. destruct (chars s) as [[t' r']|] eqn:C; [|discriminate]. destruct (utf8_valid t'); [|discriminate].
    intros E. inversion E; subst. eapply chars_length; eauto.
  Qed.
  Lemma digits_length s : forall d r, digits s = (d, r) -> length d + length r = length s.
  Proof.
    induction s as [|b s IH]; intros d r E; cbn in E; [inversion E; reflexivity|]. destruct (is_digit b).
    - destruct (digits s) as [d' r'] eqn:Ed. inversion E; subst. specialize (IH _ _ eq_refl). cbn. lia.
    - inversion E; subst. reflexivity.
  Qed.
  Lemma fraction_length s d r : fraction s = Some (d, r) -> length r <= length s.
  Proof.
    destruct s as [|b s]; cbn; [intros E; inversion E; subst; cbn; lia|]. destruct (beq b x2e).
    - destruct (digits s) as [d' r'] eqn:Ed. destruct d'; [discriminate|]. intros E. inversion E; subst. apply digits_length in Ed. cbn in *. lia.
    - intros E. inversion E; subst. cbn. lia.
  Qed.
  Lemma exponent_length s d r : exponent s = Some (d, r) -> length r <= length s.
  Proof.
    destruct s as [|b s]; cbn; [intros E; inversion E; subst; cbn; lia|]. destruct (beq b x65 || beq b x45)%bool.
    2:{ intros E. inversion E; subst. cbn. lia. }
    destruct (match s with c :: r1 => if (beq c x2b || beq c x2d)%bool then ([c], r1) else ([], s) | [] => ([], s) end) as [sg r1] eqn:Es.
    assert (length r1 <= length s) as L1.
    { destruct s as [|c s]; [inversion Es; subst; cbn; lia|]. destruct (beq c x2b || beq c x2d)%bool; inversion Es; subst; cbn; lia. }
    destruct (digits r1) as [d' r'] eqn:Ed. destruct d'; [discriminate|]. intros E. inversion E; subst. apply digits_length in Ed. cbn in *. lia.
  Qed.
  Lemma floating_rest t s v r : floating t s = Some (v, r) -> r = s.
  Proof. unfold floating. destruct (fread t); [|discriminate]. now inversion 1. Qed.
  Lemma number_length s v r : number s = Some (v, r) -> length r < length s.
  Proof.
    unfold number. destruct (match s with b :: r => if beq b x2d then (true, r) else (false, s) | [] => (false, s) end) as [neg s1] eqn:Es.
    assert (length s1 <= length s) as L1.
    { destruct s as [|c s]; [inversion Es; subst; cbn; lia|]. destruct (beq c x2d); inversion Es; subst; cbn; lia. }
    destruct (digits s1) as [d s2] eqn:Ed. apply digits_length in Ed. destruct d as [|z more]; [discriminate|]. cbn [length] in Ed.
    destruct (_ && _)%bool; [discriminate|]. destruct (fraction s2) as [[fr s3]|] eqn:Ef; [|discriminate]. apply fraction_length in Ef.
    destruct (exponent s3) as [[ex s4]|] eqn:Ee; [|discriminate]. apply exponent_length in Ee. intros E.
    enough (r = s4) by (subst; lia).
    destruct fr; [destruct ex|]; [|eapply floating_rest; eauto|eapply floating_rest; eauto].
    destruct neg; [destruct (_ && _)%bool|destruct (_ <? _)%N]; try (eapply floating_rest; eauto; fail); now inversion E.
  Qed.

  Lemma reading_length f :
    (forall d s v r, value f d s = Some (v, r) -> length r < length s) /\
    (forall d s l r, elements f d s = Some (l, r) -> length r < length s) /\
    (forall d s l r, members f d s = Some (l, r) -> length r < length s).
  Proof.
    induction f as [|f (IV & IE & IM)]; [conj; discriminate|]. conj.
    - intros d s v r E. cbn [value] in E. destruct (skip s) as [|b s1] eqn:Es; [discriminate|]. apply skip_cons in Es.
      assert (forall w x, word w s1 x = Some (v, r) -> length r < length s) as Wd.
      { intros w x X. unfold word in X. destruct (lit w s1) eqn:L; [|discriminate]. inversion X; subst. apply lit_length in L. lia. }
      destruct (beq b x6e); [eauto|]. destruct (beq b x74); [eauto|]. destruct (beq b x66); [eauto|]. clear Wd.
      destruct (beq b x22).
      { destruct (string s1) as [[t r']|] eqn:X; [|discriminate]. inversion E; subst. apply string_length in X. lia. }
      destruct (beq b x5b).
      { destruct (d <=? 1); [discriminate|]. destruct (skip s1) as [|c s2] eqn:Es2; [discriminate|]. apply skip_cons in Es2.
        destruct (beq c x5d); [inversion E; subst; lia|]. destruct (elements f (pred d) s1) as [[l r2]|] eqn:X; [|discriminate].
        inversion E; subst. apply IE in X. lia. }
      destruct (beq b x7b).
      { destruct (d <=? 1); [discriminate|]. destruct (skip s1) as [|c s2] eqn:Es2; [discriminate|]. apply skip_cons in Es2.
        destruct (beq c x7d); [inversion E; subst; lia|]. destruct (members f (pred d) s1) as [[l r2]|] eqn:X; [|discriminate].
        inversion E; subst. apply IM in X. lia. }
      destruct (_ || _)%bool; [|discriminate]. apply number_length in E. cbn in E. lia.
    - intros d s l r E. cbn [elements] in E. destruct (value f d s) as [[v s1]|] eqn:X; [|discriminate]. apply IV in X.
      destruct (skip s1) as [|c s2] eqn:Es; [discriminate|]. apply skip_cons in Es. destruct (beq c x5d); [inversion E; subst; lia|].
      destruct (beq c x2c); [|discriminate]. destruct (elements f d s2) as [[l' r2]|] eqn:Y; [|discriminate]. inversion E; subst. apply IE in Y. lia.
    - intros d s l r E. cbn [members] in E. destruct (skip s) as [|b s0] eqn:Es; [discriminate|]. apply skip_cons in Es.
      destruct (beq b x22); [|discriminate]. destruct (string s0) as [[k s1]|] eqn:Ek; [|discriminate]. apply string_length in Ek.
      destruct (skip s1) as [|c s2] eqn:Es1; [discriminate|]. apply skip_cons in Es1. destruct (beq c x3a); [|discriminate].
      destruct (value f d s2) as [[v s3]|] eqn:X; [|discriminate]. apply IV in X.
      destruct (skip s3) as [|c2 s4] eqn:Es3; [discriminate|]. apply skip_cons in Es3. destruct (beq c2 x7d); [inversion E; subst; lia|].
      destruct (beq c2 x2c); [|discriminate]. destruct (members f d s4) as [[l' r2]|] eqn:Y; [|discriminate]. inversion E; subst. apply IM in Y. lia.
  Qed.

  Lemma enough f :
    (forall d s x f', value f d s = Some x -> 2 * length s <= f' -> value f' d s = Some x) /\
    (forall d s x f', elements f d s = Some x -> 2 * length s + 1 <= f' -> elements f' d s = Some x) /\
    (forall d s x f', members f d s = Some x -> 2 * length s + 1 <= f' -> members f' d s = Some x).
  Proof.
    induction f as [|f (IV & IE & IM)]; [conj; discriminate|]. conj.
    - intros d s x f' E L. destruct f' as [|f'].
      { destruct s; [discriminate|cbn in L; lia]. }
      cbn [value] in *. destruct (skip s) as [|b s1] eqn:Es; [discriminate|]. apply skip_cons in Es.
      destruct (beq b x6e); [assumption|]. destruct (beq b x74); [assumption|]. destruct (beq b x66); [assumption|]. destruct (beq b x22); [assumption|].
      destruct (beq b x5b).
      { destruct (d <=? 1); [discriminate|]. destruct (skip s1) as [|c s2] eqn:Es2; [discriminate|]. destruct (beq c x5d); [assumption|].
        destruct (elements f (pred d) s1) as [[l r2]|] eqn:X; [|discriminate]. rewrite (IE _ _ _ f' X) by lia. assumption. }
      destruct (beq b x7b).
      { destruct (d <=? 1); [discriminate|]. destruct (skip s1) as [|c s2] eqn:Es2; [discriminate|]. destruct (beq c x7d); [assumption|].
        destruct (members f (pred d) s1) as [[l r2]|] eqn:X; [|discriminate]. rewrite (IM _ _ _ f' X) by lia. assumption. }
      assumption.
    - intros d s x f' E L. destruct f' as [|f']; [lia|].
      cbn [elements] in *. destruct (value f d s) as [[v s1]|] eqn:X; [|discriminate]. rewrite (IV _ _ _ f' X) by lia.
      apply (proj1 (reading_length f)) in X.
      destruct (skip s1) as [|c s2] eqn:Es; [discriminate|]. apply skip_cons in Es. destruct (beq c x5d); [assumption|].
      destruct (beq c x2c); [|discriminate]. destruct (elements f d s2) as [[l' r2]|] eqn:Y; [|discriminate]. rewrite (IE _ _ _ f' Y) by lia. assumption.
    - intros d s x f' E L. destruct f' as [|f']; [lia|].
      cbn [members] in *. destruct (skip s) as [|b s0] eqn:Es; [discriminate|]. apply skip_cons in Es.
      destruct (beq b x22); [|discriminate]. destruct (string s0) as [[k s1]|] eqn:Ek; [|discriminate]. apply string_length in Ek.
      destruct (skip s1) as [|c s2] eqn:Es1; [discriminate|]. apply skip_cons in Es1. destruct (beq c x3a); [|discriminate].
      destruct (value f d s2) as [[v s3]|] eqn:X; [|discriminate]. rewrite (IV _ _ _ f' X) by lia. apply (proj1 (reading_length f)) in X.
      destruct (skip s3) as [|c2 s4] eqn:Es3; [discriminate|]. apply skip_cons in Es3. destruct (beq c2 x7d); [assumption|].
      destruct (beq c2 x2c); [|discriminate]. destruct (members f d s4) as [[l' r2]|] eqn:Y; [|discriminate]. rewrite (IM _ _ _ f' Y) by lia. assumption.
  Qed.

  Lemma put_depth n k v l : depth v <= n -> Forall (fun kv => depth (snd kv) <= n) l -> Forall (fun kv : list byte * raw => depth (snd kv) <= n) (put k v l).
  Proof.
    intros Hv. induction l as [|[k' v'] l IH]; intros F; cbn [put]; [repeat constructor; exact Hv|].
    apply Forall_cons_iff in F as [F1 F2]. cbn [snd] in F1.
    destruct (cmp k k'); repeat constructor; cbn [snd]; auto.
  Qed.
  Lemma map_of_depth n l : Forall (fun kv => depth (snd kv) <= n) l -> Forall (fun kv : list byte * raw => depth (snd kv) <= n) (map_of l).
  Proof.
    unfold map_of. intros F. assert (Forall (fun kv : list byte * raw => depth (snd kv) <= n) []) as A by constructor.
    revert F A. generalize (@nil (list byte * raw)). induction l as [|[k v] l IH]; intros m F A; cbn [fold_left]; [assumption|].
    apply Forall_cons_iff in F as [F1 F2]. apply IH; [assumption|]. now apply put_depth.
  Qed.
  Lemma list_max_Forall {A} (g : A -> nat) n l : Forall (fun x => g x <= n) l -> list_max (map g l) <= n.
  Proof. intros F. apply list_max_le, Forall_map. assumption. Qed.
  (** Nothing deeper than the limit is read. *)
  Lemma reading_depth f :
    (forall d s v r, value f d s = Some (v, r) -> depth v <= pred d) /\
    (forall d s l r, elements f d s = Some (l, r) -> Forall (fun v => depth v <= pred d) l) /\
    (forall d s l r, members f d s = Some (l, r) -> Forall (fun kv => depth (snd kv) <= pred d) l).
  Proof.
    induction f as [|f (IV & IE & IM)]; [conj; discriminate|]. conj.
    - intros d s v r E. cbn [value] in E. destruct (skip s) as [|b s1]; [discriminate|].
      assert (forall w x, depth x = 0 -> word w s1 x = Some (v, r) -> depth v <= pred d) as Wd.
      { intros w x Dx X. unfold word in X. destruct (lit w s1); [|discriminate]. inversion X; subst. lia. }
      destruct (beq b x6e); [eapply Wd; [|eauto]; reflexivity|]. destruct (beq b x74); [eapply Wd; [|eauto]; reflexivity|].
      destruct (beq b x66); [eapply Wd; [|eauto]; reflexivity|]. clear Wd.
      destruct (beq b x22).
      { destruct (string s1) as [[t r']|]; [|discriminate]. inversion E; subst. cbn. lia. }
      destruct (beq b x5b).
      { destruct (Nat.leb_spec d 1) as [|D]; [discriminate|]. destruct (skip s1) as [|c s2]; [discriminate|].
        destruct (beq c x5d); [inversion E; subst; cbn; lia|]. destruct (elements f (pred d) s1) as [[l r2]|] eqn:X; [|discriminate].
        inversion E; subst. apply IE in X. apply list_max_Forall in X. cbn [depth]. lia. }
      destruct (beq b x7b).
      { destruct (Nat.leb_spec d 1) as [|D]; [discriminate|]. destruct (skip s1) as [|c s2]; [discriminate|].
        destruct (beq c x7d); [inversion E; subst; cbn; lia|]. destruct (members f (pred d) s1) as [[l r2]|] eqn:X; [|discriminate].
        inversion E; subst. apply IM, map_of_depth, (list_max_Forall (fun kv => depth (snd kv))) in X. cbn [depth]. lia. }
      destruct (_ || _)%bool; [|discriminate]. 
      assert (depth v = 0) as ->; [|lia]. unfold number in E.
      repeat match type of E with
      | match ?x with _ => _ end = _ => destruct x eqn:?; try discriminate
      | (if ?x then _ else _) = _ => destruct x eqn:?; try discriminate
      end; unfold floating in *;
      repeat match type of E with
      | match ?x with _ => _ end = _ => destruct x eqn:?; try discriminate
      | (if ?x then _ else _) = _ => destruct x eqn:?; try discriminate
      end; inversion E; subst; reflexivity.
    - intros d s l r E. cbn [elements] in E. destruct (value f d s) as [[v s1]|] eqn:X; [|discriminate]. apply IV in X.
      destruct (skip s1) as [|c s2]; [discriminate|]. destruct (beq c x5d); [inversion E; subst; now repeat constructor|].
      destruct (beq c x2c); [|discriminate]. destruct (elements f d s2) as [[l' r2]|] eqn:Y; [|discriminate]. inversion E; subst. apply IE in Y. now constructor.
    - intros d s l r E. cbn [members] in E. destruct (skip s) as [|b s0]; [discriminate|].
      destruct (beq b x22); [|discriminate]. destruct (string s0) as [[k s1]|]; [|discriminate].
      destruct (skip s1) as [|c s2]; [discriminate|]. destruct (beq c x3a); [|discriminate].
      destruct (value f d s2) as [[v s3]|] eqn:X; [|discriminate]. apply IV in X.
      destruct (skip s3) as [|c2 s4]; [discriminate|]. destruct (beq c2 x7d); [inversion E; subst; now repeat constructor|].
      destruct (beq c2 x2c); [|discriminate]. destruct (members f d s4) as [[l' r2]|] eqn:Y; [|discriminate]. inversion E; subst. apply IM in Y. now constructor.
  Qed.
  Theorem of_text_depth s v : of_text s = Some v -> depth (jraw v) <= 127.
  Proof.
    unfold of_text, read. destruct (value (2 * length s + 2) 128 s) as [[x r]|] eqn:E; [|discriminate]. destruct (skip r); [|discriminate].
    destruct (Bool.bool_dec _ _); [|discriminate]. intros X. inversion X; subst. exact (proj1 (reading_depth _) _ _ _ _ E).
  Qed.

  (** A text that any number of calls can read, [read] reads. *)
  Theorem read_enough f s v r : value f 128 s = Some (v, r) -> skip r = [] -> read s = Some v.
  Proof.
    intros E Sk. unfold read. rewrite (proj1 (enough f) _ _ _ (2 * length s + 2) E) by lia. now rewrite Sk.
  Qed.

  (** *** What is read is a JSON value *)
  Section Wf.
    Hypothesis fread_finite : forall t b, fread t = Some b -> wf_raw (RFlt b) = true.

    Lemma number_wf s v r : number s = Some (v, r) -> wf_raw v = true.
    Proof.
      assert (forall t s', floating t s' = Some (v, r) -> wf_raw v = true) as Fl.
      { intros t s' X. unfold floating in X. destruct (fread t) eqn:Ft; [|discriminate]. inversion X; subst. eauto. }
      unfold number. destruct (match s with b :: r => if beq b x2d then (true, r) else (false, s) | [] => (false, s) end) as [neg s1].
      destruct (digits s1) as [d s2]. destruct d as [|z more]; [discriminate|].
      destruct (_ && _)%bool; [discriminate|]. destruct (fraction s2) as [[fr s3]|]; [|discriminate].
      destruct (exponent s3) as [[ex s4]|]; [|discriminate]. intros E.
      destruct fr; [destruct ex|]; [|eapply Fl; eauto|eapply Fl; eauto].
      destruct neg.
      - destruct (_ && _)%bool eqn:B; [|eapply Fl; eauto]. inversion E; subst. apply andb_true_iff in B as [B1 B2]. apply N.ltb_lt in B1. apply N.leb_le in B2.
        unfold wf_raw. apply andb_true_iff. split; [apply Z.leb_le|apply Z.ltb_lt]; lia.
      - destruct (_ <? _)%N eqn:B; [|eapply Fl; eauto]. inversion E; subst. exact B.
    Qed.

    Lemma put_keys k v l : keys_ascb (map fst l) = true -> keys_ascb (map fst (put k v l)) = true.
    Proof.
      intros A.
      induction l as [|[k' v'] l IH]; [reflexivity|]. cbn [put]. destruct (cmp k k') eqn:C.
      - apply cmp_eq in C. subst. exact A.
      - cbn [map fst] in *. cbn [keys_ascb]. unfold ltb at 1. rewrite C. exact A.
      - assert (keys_ascb (map fst l) = true) as Al.
        { cbn [map fst keys_ascb] in A. destruct (map fst l); [reflexivity|]. now apply andb_true_iff in A. }
        specialize (IH Al). cbn [map fst keys_ascb]. destruct (put k v l) as [|[k1 v1] t] eqn:P; [destruct l as [|[]]; cbn in P; [discriminate|destruct (cmp k l); discriminate]|].
        cbn [map fst]. apply andb_true_iff. split; [|exact IH].
        assert (k1 = k \/ exists v2 t', l = (k1, v2) :: t') as [->|(v2 & t' & ->)].
        { destruct l as [|[k3 v3] l]; cbn in P; [inversion P; auto|]. destruct (cmp k k3) eqn:C3; inversion P; subst; eauto. }
        + unfold ltb. rewrite cmp_antisym, C. reflexivity.
        + cbn [map fst keys_ascb] in A. now apply andb_true_iff in A.
    Qed.

    Lemma put_all (P : list byte * raw -> bool) k v l : forallb P l = true -> P (k, v) = true -> forallb P (put k v l) = true.
    Proof.
      induction l as [|[k' v'] l IH]; intros A B; cbn; [now rewrite B|]. cbn in A. apply andb_true_iff in A as [A1 A2].
      destruct (cmp k k'); cbn; rewrite ?B, ?A1, ?A2; cbn; auto.
    Qed.

    Lemma map_of_wf l : forallb (fun kv => utf8_valid (fst kv) && wf_raw (snd kv)) l = true -> wf_raw (RObj (map_of l)) = true.
    Proof.
      intros F. unfold map_of. cbn [wf_raw].
      assert (forall l m, forallb (fun kv => utf8_valid (fst kv) && wf_raw (snd kv)) l = true -> keys_ascb (map fst m) = true ->
        forallb (fun kv => utf8_valid (fst kv) && wf_raw (snd kv)) m = true ->
        keys_ascb (map fst (fold_left (fun m kv => put (fst kv) (snd kv) m) l m)) &&
        forallb (fun kv => utf8_valid (fst kv) && wf_raw (snd kv)) (fold_left (fun m kv => put (fst kv) (snd kv) m) l m) = true) as G; [|now apply G].
      clear. induction l as [|[k v] l IH]; intros m F A B; cbn [fold_left]; [now rewrite A, B|].
      cbn [forallb] in F. apply andb_true_iff in F as [F1 F2]. apply IH; auto.
      - now apply put_keys.
      - apply put_all; auto.
    Qed.

    Lemma reading_wf f :
      (forall d s v r, value f d s = Some (v, r) -> wf_raw v = true) /\
      (forall d s l r, elements f d s = Some (l, r) -> forallb wf_raw l = true) /\
      (forall d s l r, members f d s = Some (l, r) -> forallb (fun kv => utf8_valid (fst kv) && wf_raw (snd kv)) l = true).
    Proof.
      assert (forall s t r, string s = Some (t, r) -> utf8_valid t = true) as Sv.
      { intros s t r. unfold string. destruct (chars s) as [[t' r']|]; [|discriminate]. destruct (utf8_valid t') eqn:U; [|discriminate]. now inversion 1; subst. }
      induction f as [|f (IV & IE & IM)]; [conj; discriminate|]. conj.
      - intros d s v r E. cbn [value] in E. destruct (skip s) as [|b s1]; [discriminate|].
        assert (forall w x, wf_raw x = true -> word w s1 x = Some (v, r) -> wf_raw v = true) as Wd.
        { intros w x Wx X. unfold word in X. destruct (lit w s1); [|discriminate]. now inversion X; subst. }
        destruct (beq b x6e); [eapply Wd; [|eauto]; reflexivity|]. destruct (beq b x74); [eapply Wd; [|eauto]; reflexivity|].
        destruct (beq b x66); [eapply Wd; [|eauto]; reflexivity|]. clear Wd.
        destruct (beq b x22).
        { destruct (string s1) as [[t r']|] eqn:X; [|discriminate]. inversion E; subst. cbn. eauto. }
        destruct (beq b x5b).
        { destruct (d <=? 1); [discriminate|]. destruct (skip s1) as [|c s2]; [discriminate|].
          destruct (beq c x5d); [now inversion E; subst|]. destruct (elements f (pred d) s1) as [[l r2]|] eqn:X; [|discriminate].
          inversion E; subst. apply IE in X. exact X. }
        destruct (beq b x7b).
        { destruct (d <=? 1); [discriminate|]. destruct (skip s1) as [|c s2]; [discriminate|].
          destruct (beq c x7d); [now inversion E; subst|]. destruct (members f (pred d) s1) as [[l r2]|] eqn:X; [|discriminate].
          inversion E; subst. apply IM in X. now apply map_of_wf. }
        destruct (_ || _)%bool; [|discriminate]. now apply number_wf in E.
      - intros d s l r E. cbn [elements] in E. destruct (value f d s) as [[v s1]|] eqn:X; [|discriminate]. apply IV in X.
        destruct (skip s1) as [|c s2]; [discriminate|]. destruct (beq c x5d); [inversion E; subst; cbn; now rewrite X|].
        destruct (beq c x2c); [|discriminate]. destruct (elements f d s2) as [[l' r2]|] eqn:Y; [|discriminate]. inversion E; subst. apply IE in Y. cbn. now rewrite X, Y.
      - intros d s l r E. cbn [members] in E. destruct (skip s) as [|b s0]; [discriminate|].
        destruct (beq b x22); [|discriminate]. destruct (string s0) as [[k s1]|] eqn:Ek; [|discriminate]. apply Sv in Ek.
        destruct (skip s1) as [|c s2]; [discriminate|]. destruct (beq c x3a); [|discriminate].
        destruct (value f d s2) as [[v s3]|] eqn:X; [|discriminate]. apply IV in X.
        destruct (skip s3) as [|c2 s4]; [discriminate|]. destruct (beq c2 x7d); [inversion E; subst; cbn; now rewrite Ek, X|].
        destruct (beq c2 x2c); [|discriminate]. destruct (members f d s4) as [[l' r2]|] eqn:Y; [|discriminate]. inversion E; subst. apply IM in Y. cbn. now rewrite Ek, X, Y.
    Qed.

    Theorem read_wf s v : read s = Some v -> wf_raw v = true.
    Proof.
      unfold read. destruct (value (2 * length s + 2) 128 s) as [[v' r]|] eqn:E; [|discriminate]. destruct (skip r); [|discriminate].
      intros X. inversion X; subst. eapply (proj1 (reading_wf _)); eauto.
    Qed.
  End Wf.
End Text.
