(** * RocksDB: calls are linearizable when no write invalidates another call's reads

    [RdbCalm.v] asks that updates do not overlap other calls at all.  Here calls
    may overlap in any way, as long as the step that applies a batch finds every
    other call in progress either finished with the database or such that all it
    has read so far it could as well have read in the new database. *)
From Verif Require Import Base OMap Json Types Util Db Rdb Spec MemFacts Conc RdbProg RdbAlone RdbConc RdbLive RdbSched.

Set Implicit Arguments.

(** ** The executions *)
Section Orderly.
  Variable H : list byte -> N.
  Variable enc : json -> bytes.
  Variable dec : bytes -> option json.

  (** [p] is what remains of the call [o] when it has made all its reads so far in
      the database [d], with the set of indexed names [ix]. *)
  Inductive so_far (e : renv) (o : op) (d : db) (ix : oset ident) : prog res -> Prop :=
  | UStart : so_far e o d ix (prog_of H enc dec e o)
  | URead f : so_far e o d ix (PDb f) -> so_far e o d ix (f d)
  | UNames f : so_far e o d ix (PIx f) -> so_far e o d ix (f ix)
  | UGuard f : so_far e o d ix (PShared f) -> so_far e o d ix (f ix).

  (** The call of thread [t], if it has one, has nothing left to do but to return,
      or would be where it is had it made all its reads in [d].  In particular a
      call that has not read anything yet is settled. *)
  Definition settled (k : rconfig) (d : db) (ix : oset ident) (t : nat) : Prop :=
    forall c e g p, rc_threads k t = Running c e g p ->
      (exists r, p = PRet r) \/ exists o, In (Inv c t o) (rc_hist k) /\ so_far e o d ix p.

  (** Thread [t] holds the write guard and is not finished: it is inside
      [index_property]. *)
  Definition indexing (k : rconfig) (t : nat) : Prop :=
    exists c e p, rc_threads k t = Running c e GExcl p /\ forall r, p <> PRet r.

  (** A step from [k] to [k'] is orderly if
      - when it changes the database or the set of indexed names, all the other
        calls in progress are settled: the change does not affect what they have
        already read;
      - while a thread is inside [index_property], the calls of the other threads
        make no progress (they may begin and return). *)
  Record orderly (k k' : rconfig) : Prop := {
    or_change : (rc_db k' = rc_db k /\ rc_ix k' = rc_ix k) \/
      forall t, rc_threads k' t = rc_threads k t -> settled k (rc_db k') (rc_ix k') t;
    or_index : forall t t' c e g p, indexing k t -> t' <> t -> rc_threads k t' = Running c e g p ->
      rc_threads k' t' = Running c e g p \/ rc_threads k' t' = RIdle }.

  Inductive oreach (E : renv -> Prop) (s : rstate) : rconfig -> Prop :=
  | OReach0 : oreach E s (rconfig0 s)
  | OReachS k k' : oreach E s k -> rstep H enc dec k k' -> envs E k' -> orderly k k' -> oreach E s k'.

  Lemma oreach_rreach E s k : oreach E s k -> rreach H enc dec E s k.
  Proof. induction 1; [constructor|econstructor; eauto]. Qed.
End Orderly.

(** ** Programs *)

Definition is_ret {A} (p : prog A) : bool := match p with PRet _ => true | _ => false end.

(** The write is the last thing a program does. *)
Fixpoint wlast {A} (p : prog A) : Prop :=
  match p with
  | PRet _ => True
  | PDb k => forall d, wlast (k d)
  | PIx k => forall ix, wlast (k ix)
  | PShared k => forall ix, wlast (k ix)
  | PExcl k => forall ix, wlast (k ix)
  | PSetIx _ k => wlast k
  | PWrite _ k => exists r, k = PRet r
  end.

Lemma wlast_bind {A B} g ix Q (p : prog A) (f : A -> prog B) :
  rsafe (fun _ _ => True) g ix Q p -> (forall a, wlast (f a)) -> wlast (pbind p f).
Proof.
  intros R F. revert R. induction p as [x|k IH|k IH|k IH|k IH|ix2 k IH|b k IH]; cbn; intros R; try easy.
  - destruct x; cbn; auto.
  - intros d. apply IH, (R d ix); auto. destruct g; cbn; auto.
  - destruct R as [-> R]. intros ix'. apply IH, (R db_empty ix'); cbn; auto.
Qed.

(** A step of a program leads to another program. *)
Lemma moves {A} (p : prog A) :
  (forall f d, p = PDb f -> f d <> p) /\ (forall f ix, p = PIx f -> f ix <> p) /\ (forall f ix, p = PShared f -> f ix <> p) /\
  (forall f ix, p = PExcl f -> f ix <> p) /\ (forall ix q, p = PSetIx ix q -> q <> p) /\ (forall b q, p = PWrite b q -> q <> p).
Proof.
  induction p as [x|k IH|k IH|k IH|k IH|ix2 k IH|b k IH]; conj; intros ? ? E; try discriminate E; inversion E; subst; intros F.
  - pose proof (IH ltac:(assumption)) as X. rewrite F in X. destruct X as (X & _). exact (X _ _ eq_refl F).
  - pose proof (IH ltac:(assumption)) as X. rewrite F in X. destruct X as (_ & X & _). exact (X _ _ eq_refl F).
  - pose proof (IH ltac:(assumption)) as X. rewrite F in X. destruct X as (_ & _ & X & _). exact (X _ _ eq_refl F).
  - pose proof (IH ltac:(assumption)) as X. rewrite F in X. destruct X as (_ & _ & _ & X & _). exact (X _ _ eq_refl F).
  - pose proof IH as X. rewrite F in X. destruct X as (_ & _ & _ & _ & X & _). exact (X _ _ eq_refl F).
  - pose proof IH as X. rewrite F in X. destruct X as (_ & _ & _ & _ & _ & X). exact (X _ _ eq_refl F).
Qed.

Section Serial.
  Variable H : list byte -> N.
  Variable enc : json -> bytes.
  Variable dec : bytes -> option json.
  Variable s0 : rstate.
  Notation step := (rdb_step H enc dec).
  Notation so_far := (so_far H enc dec).
  Notation orderly := (orderly H enc dec).

  Notation T := (fun _ _ => True).
  Notation bfine := (@fine (fun _ => True) True batch).

  Lemma guarded_wlast f : (forall ix, rsafe T GShared ix bfine (f ix)) -> wlast (p_guarded f).
  Proof. intros R. cbn. intros ix. eapply wlast_bind; [exact (R ix)|]. cbn. eauto. Qed.
  Lemma over_wlast {A} (l : list A) f : (forall ix a, rsafe T GShared ix bfine (f ix a)) -> wlast (p_guarded (fun ix => p_over l (f ix))).
  Proof. intros R. apply guarded_wlast. intros ix. apply f_over. apply R. Qed.

  Lemma tr : forall d (ix : oset ident), True -> reads_fine H dec (fun _ => True) True d.
  Proof. intros. apply trivial_reads. Qed.

  Lemma create_vertex_wlast {B} v (f : bool -> outcome B) : wlast (let! b := p_create_vertex H v in PRet (f b)).
  Proof. cbn. intros d. destruct (vertex_exists _ _ _); cbn; eauto. Qed.
  Lemma create_edge_wlast {B} v (f : bool -> outcome B) : wlast (let! b := p_create_edge H v in PRet (f b)).
  Proof.
    cbn. intros d. destruct (vertex_exists H d (eout v)); cbn; [|auto]. intros d'. destruct (vertex_exists H d' (ein v)); cbn; eauto.
  Qed.

  Lemma query_bind_wlast {B} q (f : list outv -> prog B) : (forall a, wlast (f a)) -> wlast (let! l := p_query H dec q [] in f l).
  Proof. intros F. eapply wlast_bind; [|exact F]. eapply f_query with (g := GNone) (ix0 := empty) (okerr := fun _ => True) (okpanic := True); auto. apply tr. Qed.

  Lemma dv_wlast vs : wlast (p_delete_vertices H dec vs).
  Proof. apply over_wlast. intros. (eapply f_vertex_delete; eauto using tr). Qed.
  Lemma de_wlast es : wlast (p_delete_edges H dec es).
  Proof.
    apply over_wlast. intros ix e. intros d ix' _ _. cbn [pbind rd]. destruct (vertex_get H d (eout e)) as [[t|]| |]; cbn [pbind]; try exact I.
    eapply f_edge_delete; eauto using tr.
  Qed.
  Lemma dvp_wlast ps : wlast (p_delete_vertex_properties H dec ps).
  Proof. apply over_wlast. intros. (eapply f_vprop_delete; eauto using tr). Qed.
  Lemma dep_wlast ps : wlast (p_delete_edge_properties H dec ps).
  Proof. apply over_wlast. intros. (eapply f_eprop_delete; eauto using tr). Qed.
  Lemma svp_wlast ids n v : wlast (p_set_vertex_properties H enc dec ids n v).
  Proof. apply over_wlast. intros. (eapply f_vprop_set; eauto using tr). Qed.
  Lemma sep_wlast es n v : wlast (p_set_edge_properties H enc dec es n v).
  Proof. apply over_wlast. intros. (eapply f_eprop_set; eauto using tr). Qed.
  Lemma bulk_wlast items : wlast (p_bulk_insert H enc dec items).
  Proof. apply over_wlast. intros. (eapply f_bulk_item; eauto using tr). Qed.
  Lemma index_wlast e n : wlast (p_index_property H dec e n).
  Proof.
    cbn. intros ix. destruct (mem n ix); cbn; [auto|]. intros d. eapply wlast_bind with (g := GExcl) (ix := ix).
    - apply f_each with (okerr := fun _ => True) (okpanic := True); [apply trivial_fines|]. intros a _. cbn. intros d' ix' _ _. match goal with |- context [match ?x with _ => _ end] => now destruct x end.
    - intros b. cbn. intros d2. eapply wlast_bind with (g := GExcl) (ix := ix).
      + apply f_each with (okerr := fun _ => True) (okpanic := True); [apply trivial_fines|]. intros a _. cbn. intros d' ix' _ _. match goal with |- context [match ?x with _ => _ end] => now destruct x end.
      + cbn. eauto.
  Qed.

  Lemma prog_wlast e o : wlast (prog_of H enc dec e o).
  Proof.
    destruct o; cbn [prog_of].
    - apply create_vertex_wlast.
    - apply (create_vertex_wlast (Vertex id t) (fun b => if b then Ok (RUuid id) else Err UuidTaken)).
    - apply create_edge_wlast.
    - apply query_bind_wlast. cbn. auto.
    - apply query_bind_wlast. intros l. destruct (pop l) as [[v r]| |]; cbn; auto.
      destruct v; auto using dv_wlast, de_wlast, dvp_wlast, dep_wlast. cbn. auto.
    - apply query_bind_wlast. intros l. destruct (pop l) as [[x r]| |]; cbn; auto.
      destruct x; auto using svp_wlast, sep_wlast; cbn; auto.
    - apply bulk_wlast.
    - apply index_wlast.
    - cbn. auto.
    - apply dv_wlast.
    - apply de_wlast.
    - apply dvp_wlast.
    - apply dep_wlast.
    - apply svp_wlast.
    - apply sep_wlast.
  Qed.

  (** ** The invariant *)

  Definition now (k : rconfig) (log : list batch) : rstate := RState (rc_db k) (rc_ix k) log.

  (** What is known about a call that has not had its effect yet: continued
      without interference, it does what the operation does.  A call inside
      [index_property] is related to the state [s'] before it. *)
  Definition owes (k : rconfig) (s' : rstate) (log : list batch) (e : renv) (g : guard) (p : prog res) (o : op) : Prop :=
    match g with
    | GExcl => alone e (now k log) p = step s' (e, o)
    | _ => forall log', alone e (now k log') p = step (now k log') (e, o)
    end.

  Record si (k : rconfig) (l : list (call renv)) (s' : rstate) (log : list batch) : Prop := {
    si_ex : explains step s0 (rc_hist k) s' l;
    si_run : forall t c e g p, rc_threads k t = Running c e g p -> exists o,
      In (Inv c t o) (rc_hist k) /\ (forall r, ~ In (Ret c r) (rc_hist k)) /\
      ((exists r, p = PRet r /\ In (Call c e o r) l) \/
       (is_ret p = false /\ (forall x, In x l -> c_id x <> c) /\ wlast p /\ owes k s' log e g p o));
    si_mode : now k log = s' \/ exists t, indexing k t;
    si_inv : forall c t o, In (Inv c t o) (rc_hist k) -> c < rc_next k;
    si_inv1 : forall c t o t' o', In (Inv c t o) (rc_hist k) -> In (Inv c t' o') (rc_hist k) -> t = t' /\ o = o';
    si_ret : forall c r, In (Ret c r) (rc_hist k) -> exists t o, In (Inv c t o) (rc_hist k) }.

  Ltac in_snoc H := apply in_app_or in H as [H | [H | []]].

  (** Adding a call that is in progress to the explanation. *)
  Lemma explains_snoc h s' s1 l c t e o r : explains step s0 h s' l ->
    In (Inv c t o) h -> (forall r, ~ In (Ret c r) h) -> (forall x, In x l -> c_id x <> c) ->
    step s' (e, o) = (r, s1) -> explains step s0 h s1 (l ++ [Call c e o r]).
  Proof.
    intros [X1 X2 X3 X4 X5] I N F E. constructor.
    - rewrite map_app. cbn. apply NoDup_snoc; auto. intros A. apply in_map_iff in A as (x & Ex & A). now apply (F x A).
    - intros c' t' o' r' A B. destruct (X2 _ _ _ _ A B) as (e' & C). exists e'. apply in_or_app. now left.
    - intros x A. in_snoc A; [auto|]. subst x. cbn. split; [eauto|]. intros r' B. now apply N in B.
    - eapply sequential_snoc; eauto.
    - intros x x' r' t' B A A'. in_snoc A'.
      + in_snoc A; [apply before_app_l; eauto|]. subst x. cbn in B. apply before_in in B as [B _]. now apply N in B.
      + subst x'. in_snoc A; [now apply before_snoc|]. subst x. cbn in B. apply before_in in B as [B _]. now apply N in B.
  Qed.

  (** A new invocation at the end of the history. *)
  Lemma explains_inv h s' l c t o : explains step s0 h s' l -> (forall x, In x l -> c_id x <> c) ->
    (forall r, ~ In (Ret c r) h) -> explains step s0 (h ++ [Inv c t o]) s' l.
  Proof.
    intros [X1 X2 X3 X4 X5] F N. constructor; auto.
    - intros c' t' o' r' A B. in_snoc B; [|discriminate]. in_snoc A; [eauto|]. inversion A; subst. now apply N in B.
    - intros x A. destruct (X3 x A) as [(t' & B) C]. split; [exists t'; apply in_or_app; now left|].
      intros r' D. in_snoc D; [auto|discriminate].
    - intros x x' r' t' B A A'. apply before_snoc_inv in B as [B|[B _]]; [eauto|]. inversion B. exfalso. eapply (F x'); eauto.
  Qed.

  (** A call in the explanation returns. *)
  Lemma explains_ret h s' l c t e o r : explains step s0 h s' l -> In (Call c e o r) l ->
    (forall t' o', In (Inv c t' o') h -> t' = t /\ o' = o) -> explains step s0 (h ++ [Ret c r]) s' l.
  Proof.
    intros [X1 X2 X3 X4 X5] C0 U. constructor; auto.
    - intros c' t' o' r' A B. in_snoc A; [|discriminate]. in_snoc B; [eauto|].
      inversion B; subst. exists e. destruct (U _ _ A) as [-> ->]. exact C0.
    - intros x A. destruct (X3 x A) as [(t' & B) C]. split; [exists t'; apply in_or_app; now left|].
      intros r' D. in_snoc D; [auto|]. inversion D; subst.
      assert (x = Call (c_id x) e o r') as -> by (eapply ex_id; eauto). reflexivity.
    - intros x x' r' t' B A A'. apply before_snoc_inv in B as [B|[B _]]; [eauto|discriminate].
  Qed.

  Lemma unread_alone e o d ix p : so_far e o d ix p -> forall log, alone e (RState d ix log) p = step (RState d ix log) (e, o).
  Proof.
    induction 1 as [|f U IH|f U IH|f U IH]; intros log.
    - apply alone_step.
    - rewrite <- IH. reflexivity.
    - rewrite <- IH. reflexivity.
    - rewrite <- IH. reflexivity.
  Qed.

  (** Thread [t] makes one step inside its call. *)
  Lemma si_go k l s' log t c e g p d' ix' log' g' p' k' :
    k' = RConfig d' ix' (upd (rc_threads k) t (Running c e g' p')) (rc_hist k) (rc_next k) ->
    si k l s' log -> rc_threads k t = Running c e g p -> is_ret p = false -> wlast p' ->
    (forall t2 c2 e2 g2 p2 o2, t2 <> t -> rc_threads k t2 = Running c2 e2 g2 p2 -> is_ret p2 = false ->
       In (Inv c2 t2 o2) (rc_hist k) -> owes k s' log e2 g2 p2 o2 ->
       g2 <> GExcl /\ forall log2, alone e2 (RState d' ix' log2) p2 = step (RState d' ix' log2) (e2, o2)) ->
    (forall o, owes k s' log e g p o -> In (Inv c t o) (rc_hist k) ->
       alone e (RState d' ix' log') p' = step s' (e, o) /\
       (is_ret p' = true \/ g' = GExcl \/
        (RState d' ix' log' = s' /\ forall log2, alone e (RState d' ix' log2) p' = step (RState d' ix' log2) (e, o)))) ->
    exists l1 s1, si k' l1 s1 log'.
  Proof.
    intros -> [X R M I1 I2 I3] Th NR WL Oth Own.
    destruct (R _ _ _ _ _ Th) as (o & A0 & B0 & [(r & -> & _)|(_ & F0 & W0 & O0)]); [discriminate|].
    destruct (Own o O0 A0) as [Al Nx].
    assert (forall t' c' e' g2 p2, t' <> t -> rc_threads k t' = Running c' e' g2 p2 -> c' <> c) as Other.
    { intros t' c' e' g2 p2 Ne E ->. destruct (R _ _ _ _ _ E) as (o' & A & _). destruct (I2 _ _ _ _ _ A A0). contradiction. }
    destruct (is_ret p') eqn:Q.
    - destruct p' as [r| | | | | |]; try discriminate. cbn in Al.
      exists (l ++ [Call c e o r]), (RState d' ix' log'). constructor; cbn [rc_hist rc_threads rc_next]; auto.
      + eapply explains_snoc; eauto.
      + intros t' c' e' g2 p2 E. destruct (upd_case (rc_threads k) t (Running c e g' (PRet r)) t') as [[-> U]|[Ne U]]; rewrite U in E.
        * inversion E; subst. exists o. conj; auto. left. exists r. split; [reflexivity|]. apply in_or_app. right. now left.
        * destruct (R _ _ _ _ _ E) as (o' & A & B & C). exists o'. conj; auto.
          destruct C as [(r' & -> & C)|(C1 & C2 & C3 & C4)]; [left; exists r'; split; [reflexivity|apply in_or_app; now left]|right].
          conj; auto.
          -- intros x Hx. in_snoc Hx; [auto|]. subst x. cbn. intros <-. now apply (Other _ _ _ _ _ Ne E).
          -- destruct (Oth _ _ _ _ _ _ Ne E C1 A C4) as [G2 Al2]. destruct g2; try easy; exact Al2.
    - destruct Nx as [Nx|Nx]; [discriminate|].
      exists l, s'. constructor; cbn [rc_hist rc_threads rc_next]; auto.
      + intros t' c' e' g2 p2 E. destruct (upd_case (rc_threads k) t (Running c e g' p') t') as [[-> U]|[Ne U]]; rewrite U in E.
        * inversion E; subst c' e' g2 p2. exists o. conj; auto. right. conj; auto.
          unfold owes, now. cbn [rc_db rc_ix]. destruct Nx as [->|[Es Nx]]; [exact Al|]. destruct g'; auto.
        * destruct (R _ _ _ _ _ E) as (o' & A & B & C). exists o'. conj; auto.
          destruct C as [C|(C1 & C2 & C3 & C4)]; [now left|right]. conj; auto.
          destruct (Oth _ _ _ _ _ _ Ne E C1 A C4) as [G2 Al2]. destruct g2; try easy; exact Al2.
      + destruct Nx as [->|[Es _]]; [right|left; exact Es].
        exists t, c, e, p'. split; [apply upd_eq|]. intros r ->. discriminate.
  Qed.

  Lemma si_step k l s' log k' : si k l s' log -> live k -> rstep H enc dec k k' -> orderly k k' ->
    exists l' s'' log', si k' l' s'' log'.
  Proof.
    intros K L St O.
    (* what the other calls are like when thread [t] makes a step inside its call *)
    assert (forall t c e g p d' ix' g' p', k' = RConfig d' ix' (upd (rc_threads k) t (Running c e g' p')) (rc_hist k) (rc_next k) ->
      rc_threads k t = Running c e g p -> is_ret p = false -> p' <> p ->
      (forall t2 c2 e2 g2 p2 o2, t2 <> t -> rc_threads k t2 = Running c2 e2 g2 p2 -> is_ret p2 = false ->
       In (Inv c2 t2 o2) (rc_hist k) -> owes k s' log e2 g2 p2 o2 ->
       g2 <> GExcl /\ forall log2, alone e2 (RState d' ix' log2) p2 = step (RState d' ix' log2) (e2, o2)) /\
      (g <> GExcl -> now k log = s')) as Others.
    { intros t c e g p d' ix' g' p' Ek Th NR Ne.
      assert (forall t2, t2 <> t -> ~ indexing k t2) as NI.
      { intros t2 N2 Ix. destruct (or_index O Ix (not_eq_sym N2) Th) as [E|E]; subst k'; cbn [rc_threads] in E; rewrite upd_eq in E; inversion E; contradiction. }
      split.
      - intros t2 c2 e2 g2 p2 o2 N2 Th2 NR2 I2 Ow.
        assert (g2 <> GExcl) as G2.
        { intros ->. apply (NI t2 N2). exists c2, e2, p2. split; [exact Th2|]. intros r ->. discriminate. }
        split; [exact G2|]. intros log2.
        destruct (or_change O) as [[Ed Ei]|Se].
        + subst k'. cbn in Ed, Ei. subst d' ix'. destruct g2; [exact (Ow log2)|exact (Ow log2)|easy].
        + destruct (Se t2) with (c := c2) (e := e2) (g := g2) (p := p2) as [(r & ->)|(o & I & U)]; auto; [|discriminate|].
          * subst k'. cbn [rc_threads]. destruct (upd_case (rc_threads k) t (Running c e g' p') t2) as [[-> _]|[_ U]]; [easy|exact U].
          * destruct (si_inv1 K _ _ _ _ _ I I2) as [_ ->]. subst k'. cbn [rc_ix rc_db] in U. now apply unread_alone.
      - intros G. destruct (si_mode K) as [M|(t1 & Ix)]; [exact M|]. exfalso.
        destruct (Nat.eq_dec t1 t) as [->|N1]; [|now apply (NI t1 N1)].
        destruct Ix as (c1 & e1 & p1 & E1 & _). rewrite Th in E1. now inversion E1. }
    assert (forall t c e g p, rc_threads k t = Running c e g p -> is_ret p = false -> wlast p) as WL.
    { intros t c e g p Th NR. destruct (si_run K _ Th) as (o & _ & _ & [(r & -> & _)|(_ & _ & W & _)]); [discriminate|exact W]. }
    pose proof (lv_lk L) as LK.
    destruct St as [k t e o Th|k t c e g f Th|k t c e g f Th NX|k t c e g f Th NX|k t c e g f Th NX NS|k t c e g ix p Th|
                    k t c e g b p Th W|k t c e g b p Th W|k t c e g r Th].
    - (* invoke *)
      pose proof K as [X R M I1 I2 I3].
      assert (forall t' o', ~ In (Inv (rc_next k) t' o') (rc_hist k)) as F1 by (intros t' o' A; apply I1 in A; lia).
      assert (forall r, ~ In (Ret (rc_next k) r) (rc_hist k)) as F2 by (intros r A; apply I3 in A as (t' & o' & A); now apply F1 in A).
      assert (forall x, In x l -> c_id x <> rc_next k) as F3.
      { intros x A Ex. apply (ex_sound X) in A as [(t' & A) _]. rewrite Ex in A. now apply F1 in A. }
      assert (explains step s0 (rc_hist k ++ [Inv (rc_next k) t o]) s' l) as X' by (apply explains_inv; auto).
      assert (In (Inv (rc_next k) t o) (rc_hist k ++ [Inv (rc_next k) t o])) as In0 by (apply in_or_app; right; now left).
      assert (forall r, ~ In (Ret (rc_next k) r) (rc_hist k ++ [Inv (rc_next k) t o])) as Nr.
      { intros r D. in_snoc D; [now apply F2 in D|discriminate]. }
      assert (forall p, exists th', th' = upd (rc_threads k) t (Running (rc_next k) e GNone p)) as _ by eauto.
      pose proof (fun s => alone_step H enc dec e s o) as Al.
      pose proof (prog_wlast e o) as Wl.
      remember (prog_of H enc dec e o) as p0 eqn:Ep.
      assert (forall l1, (forall x, In x l -> In x l1) -> (forall x, In x l1 -> In x l \/ c_id x = rc_next k) ->
        (exists r, p0 = PRet r /\ In (Call (rc_next k) e o r) l1) \/ (is_ret p0 = false /\ l1 = l) ->
        explains step s0 (rc_hist k ++ [Inv (rc_next k) t o]) s' l1 ->
        si (RConfig (rc_db k) (rc_ix k) (upd (rc_threads k) t (Running (rc_next k) e GNone p0)) (rc_hist k ++ [Inv (rc_next k) t o]) (S (rc_next k))) l1 s' log) as G.
      { intros l1 L1 L2 Pn X1. constructor; cbn [rc_hist rc_threads rc_next]; auto.
        - intros t' c' e' g' p' E. destruct (upd_case (rc_threads k) t (Running (rc_next k) e GNone p0) t') as [[-> U]|[Ne U]]; rewrite U in E.
          + inversion E; subst c' e' g' p'. exists o. conj; auto. destruct Pn as [Pn|[Pn ->]]; [now left|right]. conj; auto.
            intros log'. apply Al.
          + destruct (R _ _ _ _ _ E) as (o' & A & B & C). exists o'. conj.
            * apply in_or_app. now left.
            * intros r D. in_snoc D; [now apply B in D|discriminate].
            * destruct C as [(r & -> & C)|(C1 & C2 & C3 & C4)]; [left; eauto|right]. conj; auto.
              intros x Hx. destruct (L2 x Hx) as [Hy|Hy]; [auto|]. rewrite Hy. intros <-. now apply F1 in A.
        - destruct M as [M|(t1 & c1 & e1 & p1 & E1 & N1)]; [left; exact M|right].
          exists t1, c1, e1, p1. split; [|exact N1]. cbn [rc_threads].
          destruct (upd_case (rc_threads k) t (Running (rc_next k) e GNone p0) t1) as [[-> U]|[Ne U]]; [congruence|now rewrite U].
        - intros c t' o' A. in_snoc A; [apply I1 in A; lia|]. inversion A; subst. lia.
        - intros c t1 o1 t2 o2 A B. in_snoc A; in_snoc B.
          + eapply I2; eauto.
          + inversion B; subst. now apply F1 in A.
          + inversion A; subst. now apply F1 in B.
          + inversion A; inversion B; subst. auto.
        - intros c r' A. in_snoc A; [|discriminate]. apply I3 in A as (t' & o' & A). exists t', o'. apply in_or_app; now left. }
      destruct (is_ret p0) eqn:Q.
      + destruct p0 as [r| | | | | |]; try discriminate Q. clear Q.
        exists (l ++ [Call (rc_next k) e o r]), s', log. apply G.
        * intros x Hx. apply in_or_app. now left.
        * intros x Hx. in_snoc Hx; [auto|]. subst x. now right.
        * left. exists r. split; [reflexivity|]. apply in_or_app. right. now left.
        * eapply explains_snoc; eauto.
      + exists l, s', log. apply G; auto.
    - (* a read *)
      destruct (moves (PDb f)) as (Mv & _). specialize (Mv f (rc_db k) eq_refl).
      edestruct Others as [Oth Md]; [reflexivity|exact Th|reflexivity|exact Mv|].
      pose proof (WL _ _ _ _ _ Th eq_refl) as W0. cbn in W0.
      edestruct (@si_go k l s' log t c e g (PDb f) (rc_db k) (rc_ix k) log g (f (rc_db k))) as (l1 & s1 & Z); eauto.
      intros o Ow _. destruct g; cbn in Ow.
      + specialize (Md ltac:(discriminate)). split; [|right; right; split; [exact Md|exact Ow]]. rewrite <- Md. apply Ow.
      + specialize (Md ltac:(discriminate)). split; [|right; right; split; [exact Md|exact Ow]]. rewrite <- Md. apply Ow.
      + split; [exact Ow|auto].
    - (* a look at the indexed names *)
      destruct (moves (PIx f)) as (_ & Mv & _). specialize (Mv f (rc_ix k) eq_refl).
      edestruct Others as [Oth Md]; [reflexivity|exact Th|reflexivity|exact Mv|].
      pose proof (WL _ _ _ _ _ Th eq_refl) as W0. cbn in W0.
      edestruct (@si_go k l s' log t c e g (PIx f) (rc_db k) (rc_ix k) log g (f (rc_ix k))) as (l1 & s1 & Z); eauto.
      intros o Ow _. destruct g; cbn in Ow.
      + specialize (Md ltac:(discriminate)). split; [|right; right; split; [exact Md|exact Ow]]. rewrite <- Md. apply Ow.
      + specialize (Md ltac:(discriminate)). split; [|right; right; split; [exact Md|exact Ow]]. rewrite <- Md. apply Ow.
      + split; [exact Ow|auto].
    - (* the read guard *)
      destruct (LK _ _ _ _ _ Th) as [-> _].
      destruct (moves (PShared f)) as (_ & _ & Mv & _). specialize (Mv f (rc_ix k) eq_refl).
      edestruct Others as [Oth Md]; [reflexivity|exact Th|reflexivity|exact Mv|].
      pose proof (WL _ _ _ _ _ Th eq_refl) as W0. cbn in W0.
      edestruct (@si_go k l s' log t c e GNone (PShared f) (rc_db k) (rc_ix k) log GShared (f (rc_ix k))) as (l1 & s1 & Z); eauto.
      intros o Ow _. specialize (Md ltac:(discriminate)). cbn in Ow. split; [|right; right; split; [exact Md|exact Ow]]. rewrite <- Md. apply Ow.
    - (* the write guard *)
      destruct (LK _ _ _ _ _ Th) as [-> _].
      destruct (moves (PExcl f)) as (_ & _ & _ & Mv & _). specialize (Mv f (rc_ix k) eq_refl).
      edestruct Others as [Oth Md]; [reflexivity|exact Th|reflexivity|exact Mv|].
      pose proof (WL _ _ _ _ _ Th eq_refl) as W0. cbn in W0.
      edestruct (@si_go k l s' log t c e GNone (PExcl f) (rc_db k) (rc_ix k) log GExcl (f (rc_ix k))) as (l1 & s1 & Z); eauto.
      intros o Ow _. specialize (Md ltac:(discriminate)). cbn in Ow. split; [|auto]. rewrite <- Md. apply Ow.
    - (* the set of names *)
      destruct (LK _ _ _ _ _ Th) as [-> _].
      destruct (moves (PSetIx ix p)) as (_ & _ & _ & _ & Mv & _). specialize (Mv ix p eq_refl).
      edestruct Others as [Oth Md]; [reflexivity|exact Th|reflexivity|exact Mv|].
      pose proof (WL _ _ _ _ _ Th eq_refl) as W0. cbn in W0.
      edestruct (@si_go k l s' log t c e GExcl (PSetIx ix p) (rc_db k) ix log GExcl p) as (l1 & s1 & Z); eauto.
    - (* a write *)
      pose proof (WL _ _ _ _ _ Th eq_refl) as (r & ->).
      edestruct Others as [Oth Md]; [reflexivity|exact Th|reflexivity|discriminate|].
      edestruct (@si_go k l s' log t c e g (PWrite b (PRet r)) (apply_batch b (rc_db k)) (rc_ix k) (log ++ [b]) g (PRet r)) as (l1 & s1 & Z); eauto.
      { exact I. }
      intros o Ow _. split; [|now left]. destruct g; cbn in Ow; rewrite W in Ow; try (rewrite <- (Md ltac:(discriminate))); exact Ow || apply Ow.
    - (* a failed write *)
      edestruct Others as [Oth Md]; [reflexivity|exact Th|reflexivity|discriminate|].
      edestruct (@si_go k l s' log t c e g (PWrite b p) (rc_db k) (rc_ix k) log g (PRet (Err EDatastore))) as (l1 & s1 & Z); eauto.
      { exact I. }
      intros o Ow _. split; [|now left]. destruct g; cbn in Ow; rewrite W in Ow; try (rewrite <- (Md ltac:(discriminate))); exact Ow || apply Ow.
    - (* return *)
      pose proof K as [X R M I1 I2 I3]. destruct (R _ _ _ _ _ Th) as (o & A0 & B0 & [(r' & Er & C0)|(Q & _)]); [|discriminate].
      injection Er as <-.
      assert (forall t' c' e' g' p', t' <> t -> rc_threads k t' = Running c' e' g' p' -> c' <> c) as Other.
      { intros t' c' e' g' p' Ne E ->. destruct (R _ _ _ _ _ E) as (o' & A & _). destruct (I2 _ _ _ _ _ A A0). contradiction. }
      exists l, s', log. constructor; cbn [rc_hist rc_threads rc_next].
      + eapply explains_ret with (t := t); eauto.
      + intros t' c' e' g' p' E. destruct (upd_case (rc_threads k) t RIdle t') as [[-> U]|[Ne U]]; rewrite U in E; [discriminate|].
        destruct (R _ _ _ _ _ E) as (o' & A & B & C). exists o'. conj.
        * apply in_or_app. now left.
        * intros r' D. in_snoc D; [now apply B in D|]. inversion D; subst. now apply (Other _ _ _ _ _ Ne E).
        * exact C.
      + destruct M as [M|(t1 & c1 & e1 & p1 & E1 & N1)]; [left; exact M|right].
        exists t1, c1, e1, p1. split; [|exact N1]. cbn [rc_threads].
        destruct (upd_case (rc_threads k) t RIdle t1) as [[-> U]|[Ne U]]; [|now rewrite U].
        rewrite Th in E1. inversion E1; subst. now destruct (N1 r).
      + intros c' t' o' A. in_snoc A; [eauto|discriminate].
      + intros c' t1 o1 t2 o2 A B. in_snoc A; [|discriminate]. in_snoc B; [|discriminate]. eapply I2; eauto.
      + intros c' r' A. in_snoc A.
        * apply I3 in A as (t' & o' & A). exists t', o'. apply in_or_app; now left.
        * inversion A; subst. exists t, o. apply in_or_app; now left.
  Qed.

  Theorem orderly_linearizable E k : oreach H enc dec E s0 k ->
    exists s', linearizable step s0 (rc_hist k) s' /\
      ((forall t, rc_threads k t = RIdle) -> r_db s' = rc_db k /\ r_indexed s' = rc_ix k).
  Proof.
    assert (oreach H enc dec E s0 k -> exists l s' log, si k l s' log) as G.
    { induction 1 as [|k k' R IH Hs En Od].
      - exists [], s0, (r_log s0). constructor; cbn; try easy.
        + constructor; cbn; auto; try easy. constructor.
        + left. now destruct s0.
      - destruct IH as (l & s' & log & K). eapply si_step; eauto. eapply live_reach. eapply oreach_rreach; eauto. }
    intros R. destruct (G R) as (l & s' & log & K). exists s'. split; [exists l; apply K|].
    intros Id. destruct (si_mode K) as [M|(t1 & c1 & e1 & p1 & E1 & _)].
    - rewrite <- M. auto.
    - rewrite Id in E1. discriminate.
  Qed.
End Serial.

(** ** Calls that touch the database once *)

(** The query is answered from one read of the database. *)
Fixpoint one_read (q : query) : bool :=
  match q with
  | QAllVertex | QRangeVertex _ _ _ | QAllEdge => true
  | QSpecificVertex ids => match ids with [] | [_] => true | _ => false end
  | QSpecificEdge es => match es with [] | [_] => true | _ => false end
  | QEdgeWithPropertyPresence _ | QEdgeWithPropertyValue _ _ => true
  | QInclude q' | QCount q' => one_read q'
  | _ => false
  end.

(** Calls whose outcome depends on one read, or that write without reading. *)
Definition light (o : op) : bool :=
  match o with
  | OGet q => one_read q
  | OBulkInsert items => forallb (fun it => match it with BVertex _ => true | _ => false end) items
  | OSync => true
  | _ => false
  end.

Fixpoint once {A} (p : prog A) : Prop :=
  match p with
  | PRet _ => True
  | PIx k => forall ix, once (k ix)
  | PShared k => forall ix, once (k ix)
  | PDb k => forall d, is_ret (k d) = true
  | PWrite _ k => is_ret k = true
  | _ => False
  end.

Lemma bind_ret {A B} (p : prog A) (f : A -> prog B) : is_ret p = true -> (forall a, is_ret (f a) = true) -> is_ret (pbind p f) = true.
Proof. destruct p as [[]| | | | | |]; cbn; intros R F; auto; discriminate. Qed.
Lemma once_ret {A} (p : prog A) : is_ret p = true -> once p.
Proof. destruct p; cbn; easy. Qed.
Lemma once_bind {A B} (p : prog A) (f : A -> prog B) : once p -> (forall a, is_ret (f a) = true) -> once (pbind p f).
Proof.
  intros O F. revert O. induction p as [x|k IH|k IH|k IH|k IH|ix2 k IH|b k IH]; cbn; intros O; try easy; auto.
  - destruct x; cbn; auto using once_ret.
  - intros d. apply bind_ret; auto.
  - now apply bind_ret.
Qed.

Section Light.
  Variable H : list byte -> N.
  Variable enc : json -> bytes.
  Variable dec : bytes -> option json.

  Lemma then_ret {A B} (x : outcome A) (f : A -> prog B) : (forall a, is_ret (f a) = true) -> is_ret (pbind (PRet x) f) = true.
  Proof. intros. now apply bind_ret. Qed.

  Lemma query_once q : one_read q = true -> forall out, once (p_query H dec q out).
  Proof.
    assert (forall {A} (x : outcome (list A)) (f : list A -> outv) out, is_ret (let! l := PRet x in PRet (Ok (f l :: out))) = true) as C.
    { intros. now apply then_ret. }
    induction q; cbn [one_read]; intros O out; try discriminate O; cbn [p_query].
    - apply once_bind; [cbn; auto|]. intros a. exact (C _ _ Vertices out).
    - apply once_bind; [destruct start; cbn; auto|]. intros a. exact (C _ _ Vertices out).
    - apply once_bind; [|intros a; exact (C _ _ Vertices out)].
      destruct ids as [|id [|]]; try discriminate; cbn; auto.
    - apply once_bind; [cbn; auto|]. intros a. exact (C _ _ Edges out).
    - apply once_bind; [|intros a; exact (C _ _ Edges out)].
      destruct edges as [|x [|]]; try discriminate; cbn; auto.
    - apply once_bind; [|now cbn]. cbn. intros ix. destruct (mem name ix); cbn; auto.
    - apply once_bind; [|now cbn]. cbn. intros ix. destruct (mem name ix); cbn; auto.
    - apply once_bind; [auto|]. intros a. apply then_ret. now intros [].
    - assert (forall x : prog (list outv), x = p_query H dec q out -> once (let! out1 := x in
                 let! (piped, out2) := PRet (pop out1) in
                 let! n := match piped with
                           | Vertices l => PRet (Ok (lenN l))
                           | Edges l => PRet (Ok (lenN l))
                           | VertexProperties l => PRet (Ok (lenN l))
                           | EdgeProperties l => PRet (Ok (lenN l))
                           | Count _ => PRet (Err OperationOnQuery)
                           end in PRet (Ok (Count n :: re_export q piped out2)))) as G.
      { intros x ->. apply once_bind; [auto|]. intros a. apply then_ret. intros [[] ?]; reflexivity. }
      destruct q; try exact (G _ eq_refl); cbn; auto.
  Qed.

  Lemma light_once e o : light o = true -> once (prog_of H enc dec e o).
  Proof.
    destruct o; cbn [light prog_of]; intros O; try discriminate.
    - apply once_bind; [now apply query_once|now cbn].
    - cbn. intros ix. assert (exists b, p_over items (p_bulk_item H enc dec ix) = PRet (Ok b)) as (b & ->); [|now cbn].
      unfold p_over. induction items as [|it r IH]; [cbn; eauto|]. cbn in O. apply andb_true_iff in O as [O1 O2]. destruct it; try discriminate.
      destruct (IH O2) as (b & Eb). cbn. rewrite Eb. cbn. eauto.
    - cbn. auto.
  Qed.

  Definition lights (h : list event) : Prop := forall c t o, In (Inv c t o) h -> light o = true.

  Record li (k : rconfig) : Prop := {
    li_run : forall t c e g p, rc_threads k t = Running c e g p ->
      g <> GExcl /\ ((exists r, p = PRet r) \/ exists o, In (Inv c t o) (rc_hist k) /\ (forall d, so_far H enc dec e o d (rc_ix k) p) /\ once p) }.

  Lemma li_step k k' : li k -> rstep H enc dec k k' -> lights (rc_hist k') -> li k' /\ orderly H enc dec k k'.
  Proof.
    intros [R] St Li.
    assert (forall t t' c e g p, indexing k t -> t' <> t -> rc_threads k t' = Running c e g p ->
      rc_threads k' t' = Running c e g p \/ rc_threads k' t' = RIdle) as OI.
    { intros t t' c e g p (c1 & e1 & p1 & E1 & _). destruct (R _ _ _ _ _ E1). easy. }
    assert (forall d ix, ix = rc_ix k -> forall t, settled H enc dec k d ix t) as Se.
    { intros d ix -> t c e g p Th. destruct (R _ _ _ _ _ Th) as [_ [A|(o & A & B & _)]]; eauto. }
    assert (forall t c e g p d' g' p', rc_threads k t = Running c e g p -> g' <> GExcl ->
      (exists r, p' = PRet r) \/ (forall o, (forall d, so_far H enc dec e o d (rc_ix k) p) -> once p -> (forall d, so_far H enc dec e o d (rc_ix k) p') /\ once p') ->
      is_ret p = false -> li (RConfig d' (rc_ix k) (upd (rc_threads k) t (Running c e g' p')) (rc_hist k) (rc_next k))) as Go.
    { intros t c e g p d' g' p' Th G Nx NR. constructor. cbn [rc_threads rc_hist rc_ix]. intros t' c' e' g2 p2 E.
      destruct (upd_case (rc_threads k) t (Running c e g' p') t') as [[-> U]|[Ne U]]; rewrite U in E; [|eauto].
      inversion E; subst c' e' g2 p2. split; [exact G|]. destruct Nx as [Nx|Nx]; [now left|].
      destruct (R _ _ _ _ _ Th) as [_ [(r & ->)|(o & A & B & C)]]; [discriminate|]. right. exists o. destruct (Nx o B C). auto. }
    assert (forall A (p : prog A), is_ret p = true -> exists r, p = PRet r) as IR by (intros A []; cbn; eauto; discriminate).
    assert (forall t c e g p, rc_threads k t = Running c e g p -> is_ret p = false -> once p) as On.
    { intros t c e g p Th NR. destruct (R _ _ _ _ _ Th) as [_ [(r & ->)|(o & _ & _ & C)]]; [discriminate|exact C]. }
    destruct St as [k t e o Th|k t c e g f Th|k t c e g f Th NX|k t c e g f Th NX|k t c e g f Th NX NS|k t c e g ix p Th|
                    k t c e g b p Th W|k t c e g b p Th W|k t c e g r Th].
    - split; [|constructor; [left; auto|exact OI]]. constructor. cbn [rc_threads rc_hist rc_ix]. intros t' c' e' g2 p2 E.
      destruct (upd_case (rc_threads k) t (Running (rc_next k) e GNone (prog_of H enc dec e o)) t') as [[-> U]|[Ne U]]; rewrite U in E.
      + inversion E; subst c' e' g2 p2. split; [discriminate|]. right. exists o. conj.
        * apply in_or_app. right. now left.
        * intros d. constructor.
        * apply light_once. eapply Li. cbn [rc_hist]. apply in_or_app. right. now left.
      + destruct (R _ _ _ _ _ E) as [G [A|(o' & A & B)]]; split; auto. right. exists o'. split; [apply in_or_app; now left|exact B].
    - split; [|constructor; [left; auto|exact OI]]. eapply Go; [exact Th|apply (R _ _ _ _ _ Th)| |reflexivity].
      left. apply IR. apply (On _ _ _ _ _ Th eq_refl).
    - split; [|constructor; [left; auto|exact OI]]. eapply Go; [exact Th|apply (R _ _ _ _ _ Th)| |reflexivity].
      right. cbn. intros o U O. split; [intros d; now apply UNames|auto].
    - split; [|constructor; [left; auto|exact OI]]. eapply Go; [exact Th|discriminate| |reflexivity].
      right. cbn. intros o U O. split; [intros d; now apply UGuard|auto].
    - destruct (On _ _ _ _ _ Th eq_refl).
    - destruct (On _ _ _ _ _ Th eq_refl).
    - split; [|constructor; [right; intros; now apply Se|exact OI]]. eapply Go; [exact Th|apply (R _ _ _ _ _ Th)| |reflexivity].
      left. apply IR. apply (On _ _ _ _ _ Th eq_refl).
    - split; [|constructor; [left; auto|exact OI]]. eapply Go; [exact Th|apply (R _ _ _ _ _ Th)| |reflexivity]. eauto.
    - split; [|constructor; [left; auto|exact OI]]. constructor. cbn [rc_threads rc_hist rc_ix]. intros t' c' e' g2 p2 E.
      destruct (upd_case (rc_threads k) t RIdle t') as [[-> U]|[Ne U]]; rewrite U in E; [discriminate|].
      destruct (R _ _ _ _ _ E) as [G [A|(o' & A & B)]]; split; auto. right. exists o'. split; [apply in_or_app; now left|exact B].
  Qed.

  Lemma lights_prefix h x : lights (h ++ [x]) -> lights h.
  Proof. intros L c t o A. eapply L. apply in_or_app. left. exact A. Qed.

  Theorem light_orderly E s k : rreach H enc dec E s k -> lights (rc_hist k) -> oreach H enc dec E s k.
  Proof.
    assert (rreach H enc dec E s k -> lights (rc_hist k) -> oreach H enc dec E s k /\ li k) as G; [|now intros; apply G].
    induction 1 as [|k k' R IH Hs En]; intros Li.
    - split; [constructor|]. constructor. cbn. easy.
    - assert (lights (rc_hist k)) as Lk by (destruct Hs; cbn [rc_hist] in Li; eauto using lights_prefix).
      destruct (IH Lk) as [O L]. destruct (li_step L Hs Li) as [L' Od]. split; [econstructor; eauto|exact L'].
  Qed.
End Light.

(** ** Checking that a given schedule is orderly

    [fresh] are the threads that have begun a call and made no step of it. *)
Section Check.
  Variable H : list byte -> N.
  Variable enc : json -> bytes.
  Variable dec : bytes -> option json.
  Variable bound : nat.

  Definition changes (x : rthread) : bool :=
    match x with Running _ _ _ (PWrite _ _) | Running _ _ _ (PSetIx _ _) => true | _ => false end.
  Definition over (x : rthread) : bool :=
    match x with RIdle => true | Running _ _ _ p => is_ret p end.
  Definition fits_in (k : rconfig) (fresh : list nat) (t : nat) : bool :=
    nobody bound k GExcl &&
    (negb (changes (rc_threads k t)) ||
     forallb (fun t' => Nat.eqb t' t || over (rc_threads k t') || existsb (Nat.eqb t') fresh) (seq 0 bound)).

  (** One step of thread [t]. *)
  Fixpoint orderly_schedule (l : list act) (fresh : list nat) (k : rconfig) : option rconfig :=
    match l with
    | [] => Some k
    | Begin t e o :: l => match perform H enc dec bound k (Begin t e o) with Some k1 => orderly_schedule l (t :: fresh) k1 | None => None end
    | Go t _ :: l => if fits_in k fresh t then
                       match go1 bound k t with
                       | Some k1 => orderly_schedule l (filter (fun t' => negb (Nat.eqb t' t)) fresh) k1
                       | None => None
                       end
                     else None
    end.

  Variable E : renv -> Prop.
  Variable s : rstate.

  Definition begun (k : rconfig) (t : nat) : Prop :=
    exists c e o, rc_threads k t = Running c e GNone (prog_of H enc dec e o) /\ In (Inv c t o) (rc_hist k).

  Lemma go1_upd k t k' : go1 bound k t = Some k' -> (forall t', t' <> t -> rc_threads k' t' = rc_threads k t') /\
    (forall x, In x (rc_hist k) -> In x (rc_hist k')) /\
    (changes (rc_threads k t) = false -> rc_db k' = rc_db k /\ rc_ix k' = rc_ix k).
  Proof.
    intros G. unfold go1 in G. destruct (rc_threads k t) as [|c e g p]; [discriminate|].
    assert (forall x t', t' <> t -> upd (rc_threads k) t x t' = rc_threads k t') as U.
    { intros x t' Ne. destruct (upd_case (rc_threads k) t x t') as [[-> _]|[_ Q]]; [easy|exact Q]. }
    destruct p as [r|f|f|f|f|ix f|b f]; repeat match type of G with context [if ?b then _ else _] => destruct b end; try discriminate G;
      injection G as <-; cbn [rc_threads rc_hist rc_db rc_ix with_thread]; conj; auto; try (cbn; discriminate);
      intros; apply in_or_app; auto.
  Qed.

  Lemma orderly_schedule_sound l : forall fresh k k', orderly_schedule l fresh k = Some k' -> acts_in E l ->
    oreach H enc dec E s k -> envs E k -> beyond bound k -> (forall t, In t fresh -> begun k t) ->
    oreach H enc dec E s k' /\ beyond bound k'.
  Proof.
    induction l as [|a l IH]; intros fresh k k' G A R En B F; [cbn in G; inversion G; subst; auto|].
    assert (acts_in E l) as A' by (intros t e o X; apply (A t e o); now right).
    destruct a as [t e o|t n]; cbn [orderly_schedule] in G.
    - remember (perform H enc dec bound k (Begin t e o)) as k1 eqn:P. destruct k1 as [k1|]; [|discriminate]. symmetry in P.
      destruct (@schedule_sound' H enc dec bound E s [Begin t e o] k k1) as (R1 & E1 & B1); auto using oreach_rreach.
      { cbn [schedule]. now rewrite P. }
      { intros t' e' o' [X|[]]. inversion X; subst. apply (A t' e' o'). now left. }
      unfold perform in P. destruct (rc_threads k t) eqn:Th; [|discriminate]. destruct (Nat.ltb t bound); [|discriminate]. injection P as <-.
      eapply IH; eauto.
      + eapply OReachS; [exact R|now apply RInvoke|exact E1|]. constructor; [left; auto|]. cbn [rc_threads].
        intros t1 t2 c2 e2 g2 p2 _ _ Th2. left. destruct (upd_case (rc_threads k) t (Running (rc_next k) e GNone (prog_of H enc dec e o)) t2) as [[-> _]|[_ U]]; [congruence|now rewrite U].
      + intros t' [<-|Hin].
        * exists (rc_next k), e, o. cbn. rewrite upd_eq. split; [reflexivity|]. apply in_or_app. right. now left.
        * destruct (F _ Hin) as (c1 & e1 & o1 & T1 & I1). exists c1, e1, o1. cbn. split; [|apply in_or_app; now left].
          destruct (upd_case (rc_threads k) t (Running (rc_next k) e GNone (prog_of H enc dec e o)) t') as [[-> _]|[_ U]]; [congruence|now rewrite U].
    - destruct (fits_in k fresh t) eqn:Ft; [|discriminate]. destruct (go1 bound k t) as [k1|] eqn:G1; [|discriminate].
      destruct (go1_sound (H := H) (enc := enc) (dec := dec) (s := s) _ G1 (oreach_rreach R) En B) as (R1 & E1 & B1).
      destruct (go1_upd _ _ G1) as (U1 & U2 & U3).
      unfold fits_in in Ft. apply andb_true_iff in Ft as [NX Ch].
      eapply IH; eauto.
      + assert (rstep H enc dec k k1) as St.
        { clear - G1 B. unfold go1 in G1. destruct (rc_threads k t) as [|c e g p] eqn:Th; [discriminate|].
          destruct p as [r|f|f|f|f|ix f|b f].
          - inversion G1; subst. eapply RReturn; eauto.
          - inversion G1; subst. eapply RRead; eauto.
          - destruct (nobody bound k GExcl) eqn:N1; inversion G1; subst. eapply RIndexed; eauto using nobody_sound.
          - destruct (nobody bound k GExcl) eqn:N1; inversion G1; subst. eapply RShared; eauto using nobody_sound.
          - destruct (nobody bound k GExcl) eqn:N1; [|discriminate]. destruct (nobody bound k GShared) eqn:N2; inversion G1; subst. eapply RExcl; eauto using nobody_sound.
          - inversion G1; subst. eapply RSetIx; eauto.
          - destruct (wok e) eqn:W; inversion G1; subst; [eapply RWrite; eauto|eapply RFail; eauto]. }
        eapply OReachS; [exact R|exact St|exact E1|]. constructor.
        * destruct (changes (rc_threads k t)) eqn:Cg; [right|left; now apply U3].
          cbn [negb orb] in Ch. rewrite forallb_forall in Ch. intros t' Same c e g p Th.
          destruct (Nat.lt_ge_cases t' bound) as [L|L]; [|rewrite (B t' L) in Th; discriminate].
          specialize (Ch t'). rewrite in_seq in Ch. specialize (Ch ltac:(lia)).
          apply orb_true_iff in Ch as [Ch|Ch]; [apply orb_true_iff in Ch as [Ch|Ch]|].
          -- apply Nat.eqb_eq in Ch. subst t'. exfalso. clear - G1 Same Th Cg. unfold go1 in G1. rewrite Th in *.
             destruct p as [r|f|f|f|f|ix f|b f]; try discriminate Cg.
             ++ injection G1 as <-. cbn in Same. rewrite upd_eq in Same. inversion Same.
                destruct (moves (PSetIx ix f)) as (_ & _ & _ & _ & Mv & _). now apply (Mv ix f eq_refl).
             ++ destruct (wok e); injection G1 as <-; cbn in Same; rewrite upd_eq in Same; inversion Same.
                destruct (moves (PWrite b f)) as (_ & _ & _ & _ & _ & Mv). now apply (Mv b f eq_refl).
          -- left. rewrite Th in Ch. cbn in Ch. destruct p; try discriminate. eauto.
          -- apply existsb_exists in Ch as (t2 & Hin & Et). apply Nat.eqb_eq in Et. subst t2.
             destruct (F _ Hin) as (c1 & e1 & o1 & T1 & I1). rewrite Th in T1. inversion T1; subst. right. exists o1. split; [exact I1|constructor].
        * intros t1 t2 c2 e2 g2 p2 (c1 & e1 & p1 & T1 & _). exfalso. apply (nobody_sound B NX t1). exists c1, e1, p1. exact T1.
      + intros t' Hin. apply filter_In in Hin as [Hin Ne]. destruct (F _ Hin) as (c1 & e1 & o1 & T1 & I1).
        exists c1, e1, o1. rewrite U1; [auto|]. intros ->. rewrite Nat.eqb_refl in Ne. discriminate.
  Qed.
End Check.
