(** * Independent calls on the RocksDB datastore commute *)
From Verif Require Import Base OMap Json Types Util Db Rdb Spec MemFacts QueryFacts SpecFacts KeyFacts Conc RdbProg RdbAlone Foot RdbFoot RdbApart.

Set Implicit Arguments.

Section Commute.
  Variable H : list byte -> N.
  Variable enc : json -> bytes.
  Variable dec : bytes -> option json.
  Notation step := (rdb_step H enc dec).

  Definition at_key (c : cfid) (k : bytes) (b : batch) : Prop := exists w, In w b /\ wop_at w = (c, k).

  Lemma at_key_dec c k b : at_key c k b \/ ~ at_key c k b.
  Proof.
    induction b as [|w b [IH|IH]].
    - right. intros (w & [] & _).
    - left. destruct IH as (w' & Hw & E). exists w'. split; [now right|exact E].
    - assert ({wop_at w = (c, k)} + {wop_at w <> (c, k)}) as [E|N].
      { decide equality; [apply list_eq_dec, Byte.byte_eq_dec|apply cfid_dec]. }
      + left. exists w. split; [now left|exact E].
      + right. intros (w' & [<-|Hw] & E); [contradiction|]. apply IH. exists w'. auto.
  Qed.

  Lemma get_batch_away b c k : ~ at_key c k b -> forall d, get k (cf_of (apply_batch b d) c) = get k (cf_of d c).
  Proof.
    unfold apply_batch. induction b as [|w b IH]; intros N d; cbn [fold_left]; [reflexivity|].
    rewrite IH by (intros (w' & Hw & E); apply N; exists w'; split; [now right|exact E]).
    apply get_wop. intros E. apply N. exists w. split; [now left|now symmetry].
  Qed.
  Lemma get_batch_at b c k : at_key c k b -> forall d d', get k (cf_of (apply_batch b d) c) = get k (cf_of (apply_batch b d') c).
  Proof.
    unfold apply_batch. induction b as [|w b IH] using rev_ind; intros A d d'; [destruct A as (w & [] & _)|].
    rewrite !fold_left_app. cbn [fold_left].
    assert ({wop_at w = (c, k)} + {wop_at w <> (c, k)}) as [E|N].
    { decide equality; [apply list_eq_dec, Byte.byte_eq_dec|apply cfid_dec]. }
    - clear IH. destruct w as [c' k' v|c' k']; cbn in E; injection E as -> ->; cbn; rewrite !cf_set_eq.
      + now rewrite !get_set_same.
      + now rewrite !get_del_same.
    - rewrite !get_wop by congruence. apply IH. destruct A as (w' & Hw & E). apply in_app_or in Hw as [Hw|[<-|[]]]; [|contradiction].
      exists w'. auto.
  Qed.

  Lemma db_ext (d d' : db) : (forall c k, get k (cf_of d' c) = get k (cf_of d c)) -> d' = d.
  Proof.
    intros E. assert (forall c, cf_of d' c = cf_of d c) as X by (intros c; apply omap_ext; intros k; apply E).
    destruct d, d'. f_equal; [apply (X CFV)|apply (X CFE)|apply (X CFR)|apply (X CFVP)|apply (X CFEP)|apply (X CFVV)|apply (X CFEV)|apply (X CFM)].
  Qed.

  (** Batches that touch different parts commute. *)
  Lemma batches_commute W W' b b' d : within H W b -> within H W' b' -> (forall x, W x -> W' x -> False) ->
    apply_batch b (apply_batch b' d) = apply_batch b' (apply_batch b d).
  Proof.
    intros B B' N. apply db_ext. intros c k.
    destruct (at_key_dec c k b) as [A|A], (at_key_dec c k b') as [A'|A'].
    - exfalso. destruct A as (w & Hw & E), A' as (w' & Hw' & E').
      destruct (B w Hw) as (x & Wx & Rx), (B' w' Hw') as (y & Wy & Ry). rewrite E in Rx. rewrite E' in Ry.
      apply (N x Wx). now rewrite (@region_inj H x y _ _ Rx Ry).
    - rewrite (get_batch_away A'). now apply get_batch_at.
    - rewrite (get_batch_away A). now apply get_batch_at.
    - rewrite (get_batch_away A), !(get_batch_away A'), (get_batch_away A). reflexivity.
  Qed.

  Lemma keeps_batch R b d d' : keeps H R d d' -> keeps H R (apply_batch b d) (apply_batch b d').
  Proof.
    intros K c k. destruct (at_key_dec c k b) as [A|A].
    - left. now apply get_batch_at.
    - rewrite !(get_batch_away A). apply K.
  Qed.

  (** A program does the same on databases that agree on what it reads. *)
  Lemma alone_same {A} R W (Q : A -> Prop) e (p : prog A) : foot H R W Q p -> forall d d' ix log log', keyed H d -> keyed H d' -> keeps H R d d' ->
    exists r b, within H W b /\
      (exists log1, alone e (RState d ix log) p = (r, RState (apply_batch b d) ix log1)) /\
      (exists log1, alone e (RState d' ix log') p = (r, RState (apply_batch b d') ix log1)).
  Proof.
    induction p as [x|k IH|k IH|k IH|k IH|ix2 k IH|b k IH]; intros F d d' ix log log' K1 K2 K; cbn [alone r_db r_indexed r_log] in *; try contradiction.
    - exists x, []. split; [intros w []|]. split; eexists; reflexivity.
    - destruct F as [F1 F2]. rewrite (F2 d d' K1 K2 K). now apply IH.
    - now apply IH.
    - now apply IH.
    - destruct F as [F1 F2]. destruct (wok e).
      + destruct (IH F2 (apply_batch b d) (apply_batch b d') ix (log ++ [b]) (log' ++ [b])) as (r & b2 & Wi & (l1 & E1) & (l2 & E2)).
        * now apply within_keyed with (W := W).
        * now apply within_keyed with (W := W).
        * now apply keeps_batch.
        * exists r, (b ++ b2). split; [intros w Hw; apply in_app_or in Hw as [Hw|Hw]; auto|].
          unfold apply_batch in *. rewrite !fold_left_app. split; eauto.
      + exists (Err EDatastore), []. split; [intros w []|]. split; eexists; reflexivity.
  Qed.

  Lemma keeps_refl R d : keeps H R d d.
  Proof. intros c k. now left. Qed.

  (** What a call on [s] returns and writes is the same in a database that
      agrees with [s] on what the call depends on. *)
  Lemma step_same s s' e o : (forall n, o <> OIndexProperty n) -> keyed H (r_db s) -> keyed H (r_db s') -> keeps H (depends o) (r_db s) (r_db s') ->
    r_indexed s' = r_indexed s ->
    exists r b, within H (alters o) b /\
      (fst (step s (e, o)) = r /\ r_db (snd (step s (e, o))) = apply_batch b (r_db s) /\ r_indexed (snd (step s (e, o))) = r_indexed s) /\
      (fst (step s' (e, o)) = r /\ r_db (snd (step s' (e, o))) = apply_batch b (r_db s') /\ r_indexed (snd (step s' (e, o))) = r_indexed s).
  Proof.
    intros NI K1 K2 K Ix. destruct s as [d ix log], s' as [d' ix' log']. cbn [r_db r_indexed] in *. subst ix'.
    destruct (@alone_same _ _ _ _ e _ (@call_foot H enc dec e o NI) d d' ix log log' K1 K2 K) as (r & b & Wi & (l1 & E1) & (l2 & E2)).
    exists r, b. rewrite <- !alone_step, E1, E2. cbn. auto 10.
  Qed.

  Lemma steps_commute s e e' o o' : keyed H (r_db s) -> apart o o' ->
    let s1 := snd (step s (e, o)) in let s2 := snd (step s (e', o')) in
    fst (step s2 (e, o)) = fst (step s (e, o)) /\
    fst (step s1 (e', o')) = fst (step s (e', o')) /\
    r_db (snd (step s2 (e, o))) = r_db (snd (step s1 (e', o'))) /\
    r_indexed (snd (step s2 (e, o))) = r_indexed (snd (step s1 (e', o'))).
  Proof.
    intros K (N1 & N2 & D) s1 s2.
    assert (forall x, alters o x -> alters o' x -> False) as W by (intros x A A'; exact (proj1 (D x) A (alters_depends _ _ A'))).
    destruct (@step_same s s e o N1 K K (keeps_refl _ _) eq_refl) as (_ & b & Wb & (_ & Eb & Ix1) & _).
    destruct (@step_same s s e' o' N2 K K (keeps_refl _ _) eq_refl) as (_ & b' & Wb' & (_ & Eb' & Ix2) & _).
    fold s1 in Eb, Ix1. fold s2 in Eb', Ix2.
    assert (keyed H (r_db s1)) as K1 by now apply step_keyed. assert (keyed H (r_db s2)) as K2 by now apply step_keyed.
    assert (keeps H (depends o') (r_db s) (r_db s1)) as Kp1.
    { rewrite Eb. apply within_keeps with (W := alters o); [exact Wb|]. intros x Ax Dx. exact (proj1 (D x) Ax Dx). }
    assert (keeps H (depends o) (r_db s) (r_db s2)) as Kp2.
    { rewrite Eb'. apply within_keeps with (W := alters o'); [exact Wb'|]. intros x Ax Dx. exact (proj2 (D x) Ax Dx). }
    destruct (@step_same s s2 e o N1 K K2 Kp2 Ix2) as (r & c & Wc & (R1 & B1 & _) & (R2 & B2 & I2)).
    destruct (@step_same s s1 e' o' N2 K K1 Kp1 Ix1) as (r' & c' & Wc' & (R1' & B1' & _) & (R2' & B2' & I2')).
    fold s1 in B1. fold s2 in B1'. conj; try congruence.
    rewrite B2, B2', B1, B1'. eapply batches_commute; eauto.
  Qed.
End Commute.
