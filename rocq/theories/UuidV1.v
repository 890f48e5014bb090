(** * Ids made up by the library: version 1 UUIDs

    The clock, the generator's state and the bytes.  The generator is the uuid
    crate's (1.12.0, not in /repo): modelled from its documented behaviour. *)
From Verif Require Import Base OMap Types Util UtilFacts KeyFacts MemFacts.

Set Implicit Arguments.
Local Open Scope N_scope.

(** A reading of the system clock: seconds since 1970 and nanoseconds
    ([SystemTime::now], u64 and u32). *)
Record reading := Reading { secs : N; nanos : N }.

(** uuid 1.12.0 timestamp.rs, [unix_to_gregorian_ticks]: units of 100 ns since
    1582-10-15, wrapping in u64. *)
Definition ticks (r : reading) : N := (122192928000000000 + secs r * 10000000 + nanos r / 100) mod 2 ^ 64.

(** uuid 1.12.0 timestamp.rs, [context::Context]: an [AtomicU16] that starts at
    what [Context::new] was given and is incremented (wrapping) for each id; the
    low 14 bits are used.  lib/src/util.rs 18: [Context::new(0)], one per process.
    The value for the [i]-th id of the process. *)
Definition sequence (i : N) : N := (i mod 2 ^ 16) mod 2 ^ 14.

(** lib/src/util.rs 16: [NODE_ID]. *)
Definition node_id : list byte := repeat x00 6.

(** uuid 1.12.0 timestamp.rs, [encode_gregorian_timestamp], and [Uuid::from_fields]
    (big-endian).  [|] with a constant is [+]: the bits set are not in the other
    operand. *)
Definition v1_bytes (t c : N) : list byte :=
  be_bytes 4 (t mod 2 ^ 32) ++ be_bytes 2 ((t / 2 ^ 32) mod 2 ^ 16) ++ be_bytes 2 ((t / 2 ^ 48) mod 2 ^ 12 + 2 ^ 12) ++
  [byte_of ((c / 2 ^ 8) mod 2 ^ 6 + 128); byte_of c] ++ node_id.
Lemma v1_length t c : Nat.eqb (length (v1_bytes t c)) 16 = true.
Proof. unfold v1_bytes. rewrite !app_length, !be_bytes_length. reflexivity. Qed.
Definition uuid_v1 (t c : N) : uuid := exist _ (v1_bytes t c) (v1_length t c).

(** lib/src/util.rs 133-137, [generate_uuid_v1]: the [i]-th id (from 0) a process
    makes, when the clock then shows [r].  Threads share the counter; the order of
    ids is that of the increments. *)
Definition generate_uuid_v1 (r : reading) (i : N) : uuid := uuid_v1 (ticks r) (sequence i).

(** ** Facts *)

Lemma be_inj k : forall n n', be_bytes k n = be_bytes k n' -> n mod 256 ^ N.of_nat k = n' mod 256 ^ N.of_nat k.
Proof.
  induction k as [|k IH]; intros n n' E.
  - change (256 ^ N.of_nat 0) with 1. now rewrite !N.mod_1_r.
  - cbn [be_bytes] in E. apply app_inj_tail in E as [E1 E2]. apply IH in E1. apply (f_equal bN) in E2. rewrite !bN_byte_of in E2.
    rewrite Nnat.Nat2N.inj_succ, N.pow_succ_r', !N.mod_mul_r, E1, E2 by (try apply N.pow_nonzero; lia). reflexivity.
Qed.

Lemma be_small k n n' : n < 256 ^ N.of_nat k -> n' < 256 ^ N.of_nat k -> be_bytes k n = be_bytes k n' -> n = n'.
Proof. intros A B E. apply be_inj in E. now rewrite !N.mod_small in E. Qed.

Lemma app_split {A} (l1 l2 m1 m2 : list A) : length l1 = length m1 -> l1 ++ l2 = m1 ++ m2 -> l1 = m1 /\ l2 = m2.
Proof.
  revert m1. induction l1 as [|a l1 IH]; intros [|b m1] L E; try discriminate; [auto|]. inversion E. subst. cbn in L. inversion L.
  destruct (IH m1 H0 H1). subst. auto.
Qed.

Lemma low_parts t : t mod 2 ^ 60 = t mod 2 ^ 32 + 2 ^ 32 * ((t / 2 ^ 32) mod 2 ^ 16 + 2 ^ 16 * ((t / 2 ^ 48) mod 2 ^ 12)).
Proof.
  replace (2 ^ 60) with (2 ^ 32 * (2 ^ 16 * 2 ^ 12)) by reflexivity. rewrite !N.mod_mul_r by lia. rewrite N.div_div by lia. reflexivity.
Qed.
Lemma seq_parts c : c mod 2 ^ 14 = c mod 256 + 256 * ((c / 2 ^ 8) mod 2 ^ 6).
Proof. replace (2 ^ 14) with (256 * 2 ^ 6) by reflexivity. rewrite N.mod_mul_r by lia. reflexivity. Qed.

Lemma digits3 a b c a' b' c' : a < 2 ^ 32 -> a' < 2 ^ 32 -> b < 2 ^ 16 -> b' < 2 ^ 16 ->
  a + 2 ^ 32 * (b + 2 ^ 16 * c) = a' + 2 ^ 32 * (b' + 2 ^ 16 * c') -> a = a' /\ b = b' /\ c = c'.
Proof. intros. lia. Qed.
Lemma digits2 a b a' b' : a < 256 -> a' < 256 -> a + 256 * b = a' + 256 * b' -> a = a' /\ b = b'.
Proof. intros. lia. Qed.

Lemma v1_inj t c t' c' : uuid_v1 t c = uuid_v1 t' c' <-> t mod 2 ^ 60 = t' mod 2 ^ 60 /\ c mod 2 ^ 14 = c' mod 2 ^ 14.
Proof.
  assert (forall x y, y <> 0 -> x mod y < y) as ML by (intros; now apply N.mod_lt).
  assert (forall x, x mod 2 ^ 32 < 2 ^ 32) as M32 by (intros; now apply ML). assert (forall x, x mod 2 ^ 16 < 2 ^ 16) as M16 by (intros; now apply ML).
  assert (forall x, x mod 2 ^ 12 < 2 ^ 12) as M12 by (intros; now apply ML). assert (forall x, x mod 2 ^ 6 < 2 ^ 6) as M6 by (intros; now apply ML).
  assert (forall x, x mod 256 < 256) as M8 by (intros; now apply ML).
  pose proof (@be_small 4) as B4. change (256 ^ N.of_nat 4) with (2 ^ 32) in B4.
  pose proof (@be_small 2) as B2. change (256 ^ N.of_nat 2) with (2 ^ 16) in B2.
  rewrite !low_parts, !seq_parts. split.
  - intros E. apply (f_equal (@proj1_sig _ _)) in E. cbn [proj1_sig uuid_v1] in E. unfold v1_bytes in E.
    apply app_split in E as [E1 E]; [|now rewrite !be_bytes_length]. apply app_split in E as [E2 E]; [|now rewrite !be_bytes_length].
    apply app_split in E as [E3 E]; [|now rewrite !be_bytes_length]. cbn [app] in E. injection E as E4 E5.
    apply B4 in E1; [|apply M32|apply M32]. apply B2 in E2; [|apply M16|apply M16].
    assert (forall x, x mod 2 ^ 12 + 2 ^ 12 < 2 ^ 16) as L3 by (intros x; pose proof (M12 x); lia).
    apply B2 in E3; [|apply L3|apply L3]. apply N.add_cancel_r in E3.
    apply (f_equal bN) in E4, E5. rewrite !bN_byte_of in E4, E5.
    assert (forall x, x mod 2 ^ 6 + 128 < 256) as L4 by (intros x; pose proof (M6 x); lia).
    rewrite !(N.mod_small (_ + 128)) in E4 by apply L4. apply N.add_cancel_r in E4. change ((c / 2 ^ 8) mod 2 ^ 6 = (c' / 2 ^ 8) mod 2 ^ 6) in E4. rewrite E1, E2, E3, E4, E5. auto.
  - intros [E1 E2]. apply digits3 in E1 as (A & B & C); [|apply M32|apply M32|apply M16|apply M16]. apply digits2 in E2 as (D & F); [|apply M8|apply M8].
    apply bsub_eq. cbn [proj1_sig uuid_v1]. unfold v1_bytes. rewrite A, B, C, F.
    assert (byte_of c = byte_of c') as -> by (apply bN_inj; now rewrite !bN_byte_of). reflexivity.
Qed.

Lemma sequence_eq i : sequence i = i mod 2 ^ 14.
Proof.
  unfold sequence. replace (2 ^ 16) with (2 ^ 14 * 2 ^ 2) by reflexivity. rewrite N.mod_mul_r by lia.
  rewrite N.mul_comm, N.mod_add by lia. now rewrite N.mod_mod by lia.
Qed.
