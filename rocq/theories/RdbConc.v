(** * Invariants of concurrent calls on the RocksDB datastore *)
From Verif Require Import Base OMap Json Types Util Db Rdb Spec QueryFacts SpecFacts MemFacts KeyFacts RdbSpec RdbRep RdbWrite RdbPut RdbRefine Conc RdbProg.

Set Implicit Arguments.

(** ** Invariants kept by every write of every thread *)

Section Safe.
  (** The invariant of the database and the set of indexed names. *)
  Variable J : db -> oset ident -> Prop.

  (** While holding a guard a thread knows the set of indexed names. *)
  Definition knows (g : guard) (ix ix' : oset ident) : Prop :=
    match g with GNone => True | _ => ix' = ix end.

  (** A read-only program whose result satisfies [Q], whatever databases
      satisfying the invariant its reads see. *)
  Fixpoint rsafe {A} (g : guard) (ix : oset ident) (Q : outcome A -> Prop) (p : prog A) : Prop :=
    match p with
    | PRet x => Q x
    | PDb k => forall d ix', knows g ix ix' -> J d ix' -> rsafe g ix Q (k d)
    | PIx k => g = GNone /\ forall d ix', knows g ix ix' -> J d ix' -> rsafe g ix Q (k ix')
    | _ => False
    end.

  (** The same for programs that write, all of whose writes keep the invariant.
      No guard is requested while one is held. *)
  Fixpoint safe {A} (e : renv) (g : guard) (ix : oset ident) (Q : outcome A -> Prop) (p : prog A) : Prop :=
    match p with
    | PRet x => Q x
    | PDb k => forall d ix', knows g ix ix' -> J d ix' -> safe e g ix Q (k d)
    | PIx k => g = GNone /\ forall d ix', knows g ix ix' -> J d ix' -> safe e g ix Q (k ix')
    | PShared k => g = GNone /\ forall d ix', J d ix' -> safe e GShared ix' Q (k ix')
    | PExcl k => g = GNone /\ forall d ix', J d ix' -> safe e GExcl ix' Q (k ix')
    | PSetIx ix' k => g = GExcl /\ (forall d, J d ix -> J d ix') /\ safe e GExcl ix' Q k
    | PWrite b k =>
      (wok e = true -> (forall d ix', knows g ix ix' -> J d ix' -> J (apply_batch b d) ix') /\ safe e g ix Q k) /\
      (wok e = false -> Q (Err EDatastore))
    end.

  Lemma rsafe_imp {A} g ix (Q Q' : outcome A -> Prop) p : (forall x, Q x -> Q' x) -> rsafe g ix Q p -> rsafe g ix Q' p.
  Proof. intros I. induction p; cbn; eauto. intros [? ?]. eauto 8. Qed.

  Lemma rsafe_and {A} g ix (Q Q' : outcome A -> Prop) p :
    rsafe g ix Q p -> rsafe g ix Q' p -> rsafe g ix (fun x => Q x /\ Q' x) p.
  Proof. induction p; cbn; eauto. intros [? ?] [? ?]. eauto 8. Qed.

  Lemma rsafe_bind {A B} g ix (Q1 : outcome A -> Prop) (Q2 : outcome B -> Prop) p f :
    rsafe g ix Q1 p -> (forall a, Q1 (Ok a) -> rsafe g ix Q2 (f a)) ->
    (forall e, Q1 (Err e) -> Q2 (Err e)) -> (Q1 Panic -> Q2 Panic) -> rsafe g ix Q2 (pbind p f).
  Proof. intros R F E P. induction p; cbn in *; eauto; try contradiction; [destruct x; cbn; auto|]. destruct R. eauto 8. Qed.

  Lemma safe_bind {A B} e g ix (Q1 : outcome A -> Prop) (Q2 : outcome B -> Prop) p f :
    rsafe g ix Q1 p -> (forall a, Q1 (Ok a) -> safe e g ix Q2 (f a)) ->
    (forall e, Q1 (Err e) -> Q2 (Err e)) -> (Q1 Panic -> Q2 Panic) -> safe e g ix Q2 (pbind p f).
  Proof. intros R F E P. induction p; cbn in *; eauto; try contradiction; [destruct x; cbn; auto|]. destruct R. eauto 8. Qed.

  (** [pmap] at the end of a program that writes. *)
  Lemma safe_map {A B} e (Q1 : outcome A -> Prop) (Q2 : outcome B -> Prop) (f : A -> outcome B) p : forall g ix,
    safe e g ix Q1 p -> (forall a, Q1 (Ok a) -> Q2 (f a)) ->
    (forall e, Q1 (Err e) -> Q2 (Err e)) -> (Q1 Panic -> Q2 Panic) -> safe e g ix Q2 (pbind p (fun a => PRet (f a))).
  Proof.
    intros g ix R F E P. revert g ix R. induction p; intros g ix0 R; cbn in *; eauto.
    - destruct x; cbn; auto.
    - destruct R. eauto 8.
    - destruct R. eauto 8.
    - destruct R. eauto 8.
    - destruct R as (R1 & R2 & R3). eauto.
    - destruct R as [R1 R2]. split; [|auto]. intros W. destruct (R1 W). eauto.
  Qed.

  Lemma safe_none {A} e (Q : outcome A -> Prop) p : forall ix ix', safe e GNone ix Q p -> safe e GNone ix' Q p.
  Proof.
    induction p as [x|k IH|k IH|k IH|k IH|ix2 k IH|b k IH]; intros ix0 ix1 R; cbn in *; auto.
    - intros d ix' _ Hj. exact (IH d ix0 ix1 (R d ix' I Hj)).
    - destruct R as [Rg R]. split; [exact Rg|]. intros d ix' _ Hj. exact (IH ix' ix0 ix1 (R d ix' I Hj)).
    - destruct R as [R _]. discriminate.
    - destruct R as [R1 R2]. split; [|auto]. intros W. destruct (R1 W) as [R3 R4]. split; [exact R3|]. exact (IH ix0 ix1 R4).
  Qed.

  (** *** Reachable configurations *)
  Variable H : list byte -> N.
  Variable enc : json -> bytes.
  Variable dec : bytes -> option json.
  Variable good : op -> Prop.
  Variable Q : renv -> outcome res -> Prop.
  Variable Ev : renv -> Prop.
  Hypothesis progs : forall e o ix, good o -> safe e GNone ix (Q e) (prog_of H enc dec e o).

  Definition exclusive (th : nat -> rthread) : Prop :=
    forall t t', t <> t' -> holds (th t) GExcl -> ~ holds (th t') GExcl /\ ~ holds (th t') GShared.

  Record cinv (k : rconfig) : Prop := {
    ci_j : J (rc_db k) (rc_ix k);
    ci_safe : forall t c e g p, rc_threads k t = Running c e g p -> safe e g (rc_ix k) (Q e) p;
    ci_excl : exclusive (rc_threads k);
    ci_res : forall c r, In (Ret c r) (rc_hist k) -> exists e, Ev e /\ Q e r }.

  Definition all_good (h : list event) : Prop := forall c t o, In (Inv c t o) h -> good o.

  Lemma holds_running c e g p g' : holds (Running c e g p) g' <-> g = g'.
  Proof. unfold holds. split; [intros (? & ? & ? & E); now inversion E|intros ->; eauto]. Qed.
  Lemma holds_idle g : ~ holds RIdle g.
  Proof. intros (? & ? & ? & E). discriminate. Qed.

  Lemma excl_upd th t x : exclusive th ->
    (holds x GExcl -> forall t', t' <> t -> ~ holds (th t') GExcl /\ ~ holds (th t') GShared) ->
    (holds x GShared -> forall t', t' <> t -> ~ holds (th t') GExcl) ->
    exclusive (upd th t x).
  Proof.
    intros E X1 X2 a b Ne Ha. unfold upd in *.
    destruct (Nat.eqb_spec a t) as [->|Na]; destruct (Nat.eqb_spec b t) as [->|Nb]; try easy.
    - apply X1; auto.
    - split; intros Hb.
      + destruct (X1 Hb a Na). contradiction.
      + now apply (X2 Hb a Na).
    - eapply E; eauto.
  Qed.

  Lemma cinv_step k k' : cinv k -> envs Ev k -> rstep H enc dec k k' -> all_good (rc_hist k') -> cinv k'.
  Proof.
    intros [CJ CS CX CR] En St G.
    assert (forall th t x, (forall t c e g p, th t = Running c e g p -> safe e g (rc_ix k) (Q e) p) ->
              (forall c e g p, x = Running c e g p -> safe e g (rc_ix k) (Q e) p) ->
              forall t' c e g p, upd th t x t' = Running c e g p -> safe e g (rc_ix k) (Q e) p) as US.
    { intros th t x T X t' c e g p E. unfold upd in E. destruct (Nat.eqb t' t); eauto. }
    assert (forall t c e g p p', rc_threads k t = Running c e g p ->
              exclusive (upd (rc_threads k) t (Running c e g p'))) as Same.
    { intros t c e g p p' Th. apply excl_upd; auto; rewrite holds_running; intros ->; intros t' Ne.
      - apply (CX t); auto. rewrite Th. now apply holds_running.
      - intros X. apply (CX t' t) in X; auto. destruct X as [_ X]. apply X. rewrite Th. now apply holds_running. }
    destruct St as [k t e o Th|k t c e g f Th|k t c e g f Th NX|k t c e g f Th NX|k t c e g f Th NX NS|k t c e g ix p Th|
                    k t c e g b p Th W|k t c e g b p Th W|k t c e g r Th]; constructor;
      cbn [rc_db rc_ix rc_threads rc_hist rc_next] in *; auto.
    - apply US; auto. intros c e' g p E. inversion E; subst. apply progs. eapply G. apply in_or_app. right. now left.
    - apply excl_upd; auto; rewrite holds_running; discriminate.
    - intros c r A. apply in_app_or in A as [A|[A|[]]]; [eauto|discriminate].
    - apply US; auto. intros c' e' g' p E. inversion E; subst. pose proof (CS _ _ _ _ _ Th) as S1. cbn in S1.
      eapply S1; eauto. destruct g'; cbn; auto.
    - eauto.
    - apply US; auto. intros c' e' g' p E. inversion E; subst. pose proof (CS _ _ _ _ _ Th) as S1. cbn in S1.
      destruct S1 as [_ S1]. eapply S1; eauto. destruct g'; cbn; auto.
    - eauto.
    - apply US; auto. intros c' e' g' p E. inversion E; subst. pose proof (CS _ _ _ _ _ Th) as S1. cbn in S1. destruct S1. eauto.
    - apply excl_upd; auto. rewrite holds_running. discriminate.
    - apply US; auto. intros c' e' g' p E. inversion E; subst. pose proof (CS _ _ _ _ _ Th) as S1. cbn in S1. destruct S1. eauto.
    - apply excl_upd; auto.
    - pose proof (CS _ _ _ _ _ Th) as S1. cbn in S1. destruct S1 as (-> & S1 & _). auto.
    - pose proof (CS _ _ _ _ _ Th) as S1. cbn in S1. destruct S1 as (-> & S1 & S2).
      intros t' c' e' g' p' E. unfold upd in E. destruct (Nat.eqb_spec t' t) as [->|Ne].
      + inversion E; subst. exact S2.
      + assert (g' = GNone) as ->.
        { destruct (CX t t') as [X1 X2]; auto; [rewrite Th; now apply holds_running|]. rewrite E in X1, X2.
          destruct g'; auto; exfalso; [apply X2|apply X1]; now apply holds_running. }
        eapply safe_none. eauto.
    - eauto.
    - pose proof (CS _ _ _ _ _ Th) as S1. cbn in S1. destruct S1 as [S1 _]. destruct (S1 W) as [S2 _].
      apply S2; auto. destruct g; cbn; auto.
    - apply US; auto. intros c' e' g' p' E. inversion E; subst. pose proof (CS _ _ _ _ _ Th) as S1. cbn in S1.
      destruct S1 as [S1 _]. now destruct (S1 W).
    - eauto.
    - apply US; auto. intros c' e' g' p' E. inversion E; subst. pose proof (CS _ _ _ _ _ Th) as S1. cbn in S1 |- *.
      destruct S1 as [_ S1]. auto.
    - eauto.
    - apply US; auto. discriminate.
    - apply excl_upd; auto; intros X; now apply holds_idle in X.
    - intros c' r' A. apply in_app_or in A as [A|[A|[]]]; [eauto|]. inversion A; subst.
      exists e. split; [exact (En _ _ _ _ _ Th)|exact (CS _ _ _ _ _ Th)].
  Qed.

  Theorem safe_reach s k : J (r_db s) (r_indexed s) -> rreach H enc dec Ev s k -> all_good (rc_hist k) -> cinv k.
  Proof.
    intros J0 R. induction R as [|k k' R IH St En]; intros G.
    - constructor; cbn; auto; try easy. intros t t' _ X. now apply holds_idle in X.
    - assert (envs Ev k) as Ek by (destruct R; [intros ? ? ? ? ? X; discriminate X|assumption]).
      eapply cinv_step; eauto. apply IH. intros c t o A. apply (G c t o).
      inversion St; subst; cbn; auto; apply in_or_app; now left.
  Qed.
End Safe.

(** ** What a batch is made of

    Whatever its reads saw, a call writes a batch made of the following pieces. *)
Section Pieces.
  Variable H : list byte -> N.
  Variable enc : json -> bytes.
  Variable dec : bytes -> option json.
  (** [P] holds of every value written. *)
  Variable P : json -> Prop.

  Definition unindex_v (n : ident) (o : option json) (id : uuid) : batch :=
    match o with Some v => [Del CFVV (vvalue_key H n v id)] | None => [] end.
  Definition unindex_e (n : ident) (o : option json) (e : edge) : batch :=
    match o with Some v => [Del CFEV (evalue_key H n v e)] | None => [] end.

  Inductive piece (ix : oset ident) : batch -> Prop :=
  | pc_vertex id t : piece ix [Put CFV (vertex_key H id) (build H [CIdent t])]
  | pc_no_vertex id : piece ix [Del CFV (vertex_key H id)]
  | pc_edge e : piece ix [Put CFE (edge_key H e) []; Put CFR (edge_key H (reversed e)) []]
  | pc_no_edge e : piece ix [Del CFE (edge_key H e); Del CFR (edge_key H (reversed e))]
  | pc_no_vprop id n o : piece ix (unindex_v n o id ++ [Del CFVP (vprop_key H id n)])
  | pc_vprop id n v : mem n ix = false -> P v -> piece ix [Put CFVP (vprop_key H id n) (enc v)]
  | pc_vprop_ix id n v : P v -> piece ix [Put CFVP (vprop_key H id n) (enc v); Put CFVV (vvalue_key H n v id) []]
  | pc_no_eprop e n o : piece ix (unindex_e n o e ++ [Del CFEP (eprop_key H e n)])
  | pc_eprop e n v : mem n ix = false -> P v -> piece ix [Put CFEP (eprop_key H e n) (enc v)]
  | pc_eprop_ix e n v : P v -> piece ix [Put CFEP (eprop_key H e n) (enc v); Put CFEV (evalue_key H n v e) []]
  | pc_vindex n v id : piece ix [Put CFVV (vvalue_key H n v id) []]
  | pc_eindex n v e : piece ix [Put CFEV (evalue_key H n v e) []]
  | pc_meta l : piece ix [Put CFM meta_key (bin_idents l)].

  Inductive pieces (ix : oset ident) : batch -> Prop :=
  | ps_nil : pieces ix []
  | ps_cons b bs : piece ix b -> pieces ix bs -> pieces ix (b ++ bs).

  Lemma pieces_app ix b b' : pieces ix b -> pieces ix b' -> pieces ix (b ++ b').
  Proof. induction 1; cbn; auto. intros B. rewrite <- app_assoc. constructor; auto. Qed.
  Lemma pieces_one ix b : piece ix b -> pieces ix b.
  Proof. intros. rewrite <- (app_nil_r b). constructor; [assumption|constructor]. Qed.

  Definition built (ix : oset ident) (x : outcome batch) : Prop := match x with Ok b => pieces ix b | _ => True end.

  (** An operation writes only values satisfying [P]. *)
  Definition writes_item (it : bulk_item) : Prop := match it with BVProp _ _ x | BEProp _ _ x => P x | _ => True end.
  Definition writes (o : op) : Prop :=
    match o with
    | OSetProperties _ _ x | TSetVertexProperties _ _ x | TSetEdgeProperties _ _ x => P x
    | OBulkInsert items => Forall writes_item items
    | _ => True
    end.

  Section Built.
    Variable J : db -> oset ident -> Prop.
    Variable g : guard.
    Variable ix0 : oset ident.
    Notation rsafe := (rsafe J g ix0).
    Definition any {A} (_ : outcome A) : Prop := True.

    Lemma s_ret {A} (Q : outcome A -> Prop) x : Q x -> rsafe Q (PRet x).
    Proof. auto. Qed.
    Lemma s_rd {A} (Q : outcome A -> Prop) f : (forall d ix', knows g ix0 ix' -> J d ix' -> Q (f d)) -> rsafe Q (rd f).
    Proof. auto. Qed.
    Lemma s_rd_any {A} (f : db -> outcome A) : rsafe any (rd f).
    Proof. cbn. unfold any. auto. Qed.

    Lemma s_each {A} ix (l : list (outcome A)) f : (forall a, In (Ok a) l -> rsafe (built ix) (f a)) -> rsafe (built ix) (p_each l f).
    Proof.
      induction l as [|x l IH]; intros E; [cbn; constructor|]. cbn [p_each].
      eapply rsafe_bind with (Q1 := fun y => y = x); cbn; auto.
      intros a <-. eapply rsafe_bind; [apply E; now left| |cbn; auto|cbn; auto]. intros b Hb.
      eapply rsafe_bind; [apply IH; intros; apply E; now right| |cbn; auto|cbn; auto]. intros bs Hbs.
      cbn. now apply pieces_app.
    Qed.
    Lemma s_over {A} ix (l : list A) f : (forall a, In a l -> rsafe (built ix) (f a)) -> rsafe (built ix) (p_over l f).
    Proof. intros E. apply s_each. intros a A1. apply in_map_iff in A1 as (b & B & C). inversion B; subst. auto. Qed.

    Lemma s_vprop_delete' ix id n :
      rsafe (fun x => match x with Ok b => exists o, b = unindex_v n o id ++ [Del CFVP (vprop_key H id n)] | _ => True end)
        (p_vprop_delete H dec ix id n).
    Proof.
      unfold p_vprop_delete. destruct (mem n ix).
      - eapply rsafe_bind with (Q1 := fun x => match x with Ok b => exists o, b = unindex_v n o id | _ => True end); auto.
        + eapply rsafe_bind; [apply s_rd_any| |auto|auto]. intros o _. cbn. now exists o.
        + intros b [o ->]. cbn. eauto.
      - cbn. now exists None.
    Qed.
    Lemma s_vprop_delete ix id n : rsafe (built ix) (p_vprop_delete H dec ix id n).
    Proof.
      eapply rsafe_imp; [|apply s_vprop_delete']. intros [b|e|] Hb; cbn; auto.
      destruct Hb as [o ->]. apply pieces_one. constructor.
    Qed.
    Lemma s_eprop_delete' ix e n :
      rsafe (fun x => match x with Ok b => exists o, b = unindex_e n o e ++ [Del CFEP (eprop_key H e n)] | _ => True end)
        (p_eprop_delete H dec ix e n).
    Proof.
      unfold p_eprop_delete. destruct (mem n ix).
      - eapply rsafe_bind with (Q1 := fun x => match x with Ok b => exists o, b = unindex_e n o e | _ => True end); auto.
        + eapply rsafe_bind; [apply s_rd_any| |auto|auto]. intros o _. cbn. now exists o.
        + intros b [o ->]. cbn. eauto.
      - cbn. now exists None.
    Qed.
    Lemma s_eprop_delete ix e n : rsafe (built ix) (p_eprop_delete H dec ix e n).
    Proof.
      eapply rsafe_imp; [|apply s_eprop_delete']. intros [b|e'|] Hb; cbn; auto.
      destruct Hb as [o ->]. apply pieces_one. constructor.
    Qed.
    Lemma s_vprop_set ix id n v : P v -> rsafe (built ix) (p_vprop_set H enc dec ix id n v).
    Proof.
      intros Hv. unfold p_vprop_set. destruct (mem n ix) eqn:E.
      - eapply rsafe_bind; [apply s_vprop_delete| |cbn; auto|cbn; auto]. intros b Hb. cbn. apply pieces_app; [assumption|].
        apply pieces_one. now constructor.
      - cbn. apply pieces_one. now constructor.
    Qed.
    Lemma s_eprop_set ix e n v : P v -> rsafe (built ix) (p_eprop_set H enc dec ix e n v).
    Proof.
      intros Hv. unfold p_eprop_set. destruct (mem n ix) eqn:E.
      - eapply rsafe_bind; [apply s_eprop_delete| |cbn; auto|cbn; auto]. intros b Hb. cbn. apply pieces_app; [assumption|].
        apply pieces_one. now constructor.
      - cbn. apply pieces_one. now constructor.
    Qed.
    Lemma pieces_edge_set ix d e : pieces ix (edge_set H d e).
    Proof.
      unfold edge_set. apply pieces_app; [|apply pieces_one; constructor].
      destruct (edge_contains H d e); [apply pieces_one; constructor|constructor].
    Qed.
    Lemma s_edge_set ix e : rsafe (built ix) (p_edge_set H e).
    Proof. apply s_rd. intros. cbn. apply pieces_edge_set. Qed.
    Lemma s_edge_delete ix e : rsafe (built ix) (p_edge_delete H dec ix e).
    Proof.
      unfold p_edge_delete. eapply rsafe_bind; [apply s_rd_any| |now cbn|now cbn]. intros l _.
      eapply rsafe_bind; [apply s_each; intros; apply s_eprop_delete| |auto|auto]. intros ps Hps. cbn.
      apply (@ps_cons ix [_; _]); [constructor|assumption].
    Qed.
    Lemma s_vertex_delete ix id : rsafe (built ix) (p_vertex_delete H dec ix id).
    Proof.
      assert (forall e, rsafe (built ix) (if eqb (eout e) id then p_edge_delete H dec ix e else PRet Panic)) as E.
      { intros e. destruct (eqb (eout e) id); [apply s_edge_delete|now cbn]. }
      unfold p_vertex_delete. eapply rsafe_bind; [apply s_rd_any| |now cbn|now cbn]. intros l1 _.
      eapply rsafe_bind; [apply s_each; intros; apply s_vprop_delete| |auto|auto]. intros b1 B1.
      eapply rsafe_bind; [apply s_rd_any| |now cbn|now cbn]. intros l2 _.
      eapply rsafe_bind; [apply s_each; intros; apply E| |auto|auto]. intros b2 B2.
      eapply rsafe_bind; [apply s_rd_any| |now cbn|now cbn]. intros l3 _.
      eapply rsafe_bind; [apply s_each; intros; apply E| |auto|auto]. intros b3 B3.
      cbn. apply (@ps_cons ix [_]); [constructor|]. apply pieces_app; [assumption|]. now apply pieces_app.
    Qed.
    Lemma s_bulk_item ix it : writes_item it -> rsafe (built ix) (p_bulk_item H enc dec ix it).
    Proof.
      destruct it; cbn [p_bulk_item writes_item]; intros W.
      - cbn. apply pieces_one. constructor.
      - apply s_edge_set.
      - now apply s_vprop_set.
      - now apply s_eprop_set.
    Qed.
  End Built.
End Pieces.

(** ** Results of calls whose reads see different databases *)

Section Fine.
  Variable H : list byte -> N.
  Variable enc : json -> bytes.
  Variable dec : bytes -> option json.
  (** The errors a call may return, and whether it may panic. *)
  Variable okerr : error -> Prop.
  Variable okpanic : Prop.
  Hypothesis ok_q : okerr OperationOnQuery.
  Hypothesis ok_n : okerr NotIndexed.

  Definition fine {A} (x : outcome A) : Prop :=
    match x with Ok _ => True | Err e => okerr e | Panic => okpanic end.

  (** Every single read is fine. *)
  Record reads_fine (d : db) : Prop := {
    rf_vertices : forall id, Forall fine (vertices_from H d id);
    rf_vertex : forall id, fine (vertex_get H d id);
    rf_edges : forall e, Forall fine (edges_from H (d_edges d) e);
    rf_redges : forall e, Forall fine (edges_from H (d_reversed d) e);
    rf_all : Forall fine (edges_all d);
    rf_root : forall id, Forall fine (edges_for_root H (d_edges d) id);
    rf_rroot : forall id, Forall fine (edges_for_root H (d_reversed d) id);
    rf_out : forall id e, In (Ok e) (edges_for_root H (d_edges d) id) -> eout e = id \/ okpanic;
    rf_rout : forall id e, In (Ok e) (edges_for_root H (d_reversed d) id) -> eout e = id \/ okpanic;
    rf_vprop : forall id n, fine (vprop_get H dec d id n);
    rf_eprop : forall e n, fine (eprop_get H dec d e n);
    rf_vprops : forall id, Forall fine (vprops_for_owner H dec d id);
    rf_eprops : forall e, Forall fine (eprops_for_owner H dec d e);
    rf_vvn : forall n, Forall fine (vvalues_for_name H d n);
    rf_vvv : forall n v, Forall fine (vvalues_for_value H d n v);
    rf_evn : forall n, Forall fine (evalues_for_name H d n);
    rf_evv : forall n v, Forall fine (evalues_for_value H d n v) }.

  Lemma fine_collect {A} (l : list (outcome A)) : Forall fine l -> fine (collect l).
  Proof.
    induction 1 as [|x l Hx Hl IH]; cbn; [exact I|]. destruct x; cbn in *; auto. destruct (collect l); cbn in *; auto.
  Qed.
  Lemma fine_filter {A} f (l : list (outcome A)) : Forall fine l -> Forall fine (filter f l).
  Proof. induction 1; cbn; auto. destruct (f x); auto. Qed.
  Lemma fine_takeN {A} n (l : list (outcome A)) : Forall fine l -> Forall fine (takeN n l).
  Proof. intros F. revert n. induction F; intros n; cbn; auto. destruct (N.eqb n 0); auto. Qed.
  Lemma fine_take_while {A} f (l : list (outcome A)) : Forall fine l -> Forall fine (take_while f l).
  Proof. induction 1; cbn; auto. destruct (f x); auto. Qed.
  Lemma fine_mapo {A B} (f : A -> B) (x : outcome A) : fine x -> fine (omapo f x).
  Proof. destruct x; auto. Qed.
  Lemma fine_map {A B} (f : A -> B) (l : list (outcome A)) : Forall fine l -> Forall fine (map (omapo f) l).
  Proof. induction 1; cbn; auto. constructor; auto. now apply fine_mapo. Qed.

  Variable J : db -> oset ident -> Prop.
  Hypothesis JF : forall d ix, J d ix -> reads_fine d.

  Section Reads.
    Variable g : guard.
    Variable ix0 : oset ident.
    Notation rsafe := (rsafe J g ix0).

    Definition alls {A} (x : outcome (list (outcome A))) : Prop := match x with Ok l => Forall fine l | Err e => okerr e | Panic => okpanic end.
    Definition allso {A} (x : outcome (option (list (outcome A)))) : Prop :=
      match x with Ok (Some l) => Forall fine l | Ok None => True | Err e => okerr e | Panic => okpanic end.
    Definition some {A} (x : outcome (list A)) : Prop := match x with Ok l => l <> [] | Err e => okerr e | Panic => okpanic end.

    (** Binding with the usual propagation. *)
    Lemma f_bind {A B} (Q1 : outcome A -> Prop) (Q2 : outcome B -> Prop) p f :
      rsafe Q1 p -> (forall a, Q1 (Ok a) -> rsafe Q2 (f a)) ->
      (forall e, Q1 (Err e) -> okerr e) -> (Q1 Panic -> okpanic) ->
      (forall e, okerr e -> Q2 (Err e)) -> (okpanic -> Q2 Panic) -> rsafe Q2 (pbind p f).
    Proof. intros. eapply rsafe_bind; eauto. Qed.

    Ltac bind := eapply f_bind; [| |now cbn|now cbn|now cbn|now cbn].
    Ltac leaf := let d := fresh in let i := fresh in let HJ := fresh in intros d i _ HJ; apply JF in HJ; cbn; try (now apply HJ).

    Lemma f_specific_vertices ids : rsafe alls (p_specific_vertices H ids).
    Proof.
      induction ids as [|id ids IH]; [cbn; auto|]. cbn [p_specific_vertices].
      eapply f_bind with (Q1 := fun x => match x with Ok y => fine y | Err e => okerr e | Panic => okpanic end); [|  |now cbn|now cbn|now cbn|now cbn]. { leaf. }
      intros o Ho. eapply f_bind; [exact IH| |now cbn|now cbn|now cbn|now cbn]. intros rest Hr.
      cbn in *. destruct o as [[t|]|e|]; cbn in *; auto.
    Qed.
    Lemma f_existing l : Forall fine l -> rsafe alls (p_existing H l).
    Proof.
      induction 1 as [|x l Hx Hl IH]; [cbn; auto|]. cbn [p_existing]. destruct x as [id|e|].
      - eapply f_bind with (Q1 := fine); [| |now cbn|now cbn|now cbn|now cbn]. { cbn. auto. }
        intros b _. eapply f_bind; [exact IH| |now cbn|now cbn|now cbn|now cbn]. intros rest Hr.
        cbn in *. destruct b; auto.
      - eapply f_bind; [exact IH| |now cbn|now cbn|now cbn|now cbn]. intros rest Hr. cbn in *. auto.
      - eapply f_bind; [exact IH| |now cbn|now cbn|now cbn|now cbn]. intros rest Hr. cbn in *. auto.
    Qed.
    Lemma f_vids n : g = GNone -> rsafe allso (p_vertex_ids_with_property H n).
    Proof.
      intros Hg. split; [exact Hg|]. intros d ix' _ _. destruct (mem n ix'); [|cbn; auto].
      eapply f_bind with (Q1 := alls); [| |now cbn|now cbn|now cbn|now cbn]. { leaf. }
      intros l Hl. unfold pmap. eapply f_bind; [apply f_existing, Hl| |now cbn|now cbn|now cbn|now cbn]. now cbn.
    Qed.
    Lemma f_vidsv n v : g = GNone -> rsafe allso (p_vertex_ids_with_property_value H n v).
    Proof.
      intros Hg. split; [exact Hg|]. intros d ix' _ _. destruct (mem n ix'); [|cbn; auto].
      eapply f_bind with (Q1 := alls); [| |now cbn|now cbn|now cbn|now cbn]. { leaf. }
      intros l Hl. unfold pmap. eapply f_bind; [apply f_existing, Hl| |now cbn|now cbn|now cbn|now cbn]. now cbn.
    Qed.
    Lemma f_eids n : g = GNone -> rsafe allso (p_edges_with_property H n).
    Proof. intros Hg. split; [exact Hg|]. intros d ix' _ _. destruct (mem n ix'); [leaf|cbn; auto]. Qed.
    Lemma f_eidsv n v : g = GNone -> rsafe allso (p_edges_with_property_value H n v).
    Proof. intros Hg. split; [exact Hg|]. intros d ix' _ _. destruct (mem n ix'); [leaf|cbn; auto]. Qed.
    Lemma f_specific_edges es : rsafe alls (p_specific_edges H es).
    Proof.
      induction es as [|e es IH]; [cbn; auto|]. cbn [p_specific_edges].
      eapply f_bind with (Q1 := fine); [| |now cbn|now cbn|now cbn|now cbn]. { cbn. auto. }
      intros b _. eapply f_bind; [exact IH| |now cbn|now cbn|now cbn|now cbn]. intros rest Hr.
      cbn in *. destruct b; auto. constructor; [exact I|auto].
    Qed.

    Lemma collect_length {A} (l : list (outcome A)) r : collect l = Ok r -> lenN r = lenN l.
    Proof.
      revert r. induction l as [|x l IH]; intros r E; cbn in E; [inversion E; reflexivity|].
      destruct x; cbn in E; try discriminate. destruct (collect l) eqn:C; cbn in E; try discriminate. inversion E; subst.
      specialize (IH _ eq_refl). unfold lenN in *. cbn. lia.
    Qed.

    Lemma f_pipe_vertices dir limit t vs : forall es, (lenN es <= limit)%N -> rsafe fine (p_pipe_vertices H dir limit t vs es).
    Proof.
      induction vs as [|v vs IH]; intros es Hes; [cbn; auto|]. cbn [p_pipe_vertices].
      eapply f_bind with (Q1 := alls); [| |now cbn|now cbn|now cbn|now cbn]. { destruct dir; leaf. }
      intros it Hit. cbv zeta.
      eapply f_bind with (Q1 := fun x => x = Ok (limit - lenN es)%N); [| |discriminate|discriminate|now cbn|now cbn].
      { cbn. unfold checked_sub. destruct (N.ltb_spec limit (lenN es)); [lia|reflexivity]. }
      intros n En. inversion En; subst n. clear En.
      eapply f_bind with (Q1 := fun x => fine x /\ forall r, x = Ok r -> (lenN r <= limit - lenN es)%N); [| |now cbn|now cbn|now cbn|now cbn].
      { cbn. split.
        - apply fine_collect, fine_takeN. destruct dir; [|apply fine_map]; now apply fine_filter, fine_take_while.
        - intros r E. apply collect_length in E. rewrite E. apply takeN_length. }
      intros new [_ Hn]. specialize (Hn _ eq_refl).
      destruct (N.leb_spec limit (lenN (es ++ new))); [cbn; auto|]. apply IH. lia.
    Qed.

    Lemma f_pipe_edges dir limit t es : rsafe fine (p_pipe_edges H dir limit t es).
    Proof.
      unfold p_pipe_edges. eapply f_bind; [apply f_specific_vertices| |now cbn|now cbn|now cbn|now cbn].
      intros it Hit. cbn. now apply fine_collect, fine_takeN, fine_filter.
    Qed.

    Lemma fine_props {A} (l : iter A) (f : A -> ident * json) : Forall fine l ->
      fine (let? l := collect l in Ok (map (fun x => Ok (f x)) l)).
    Proof. intros F. apply fine_collect in F. destruct (collect l); cbn in *; auto. Qed.
    Lemma alls_props {A} (l : iter A) (f : A -> ident * json) : Forall fine l ->
      alls (let? l := collect l in Ok (map (fun x => Ok (f x)) l)).
    Proof.
      intros F. apply fine_collect in F. destruct (collect l); cbn in *; auto.
      apply Forall_forall. intros x Hx. apply in_map_iff in Hx as (y & <- & _). exact I.
    Qed.

    Lemma f_props_of_vertices name vs : rsafe fine (p_props_of_vertices H dec name vs).
    Proof.
      induction vs as [|v vs IH]; [cbn; auto|]. cbn [p_props_of_vertices].
      eapply f_bind with (Q1 := fine); [| |now cbn|now cbn|now cbn|now cbn].
      - destruct name as [n|].
        + eapply f_bind with (Q1 := fine); [leaf|now cbn|now cbn|now cbn|now cbn|now cbn].
        + eapply f_bind with (Q1 := alls); [| |now cbn|now cbn|now cbn|now cbn].
          * intros d ix' _ HJ. apply JF in HJ. cbn. apply alls_props, HJ.
          * intros it Hit. eapply f_bind with (Q1 := fine); [cbn; now apply fine_collect|now cbn|now cbn|now cbn|now cbn|now cbn].
      - intros props _. eapply f_bind; [exact IH|now cbn|now cbn|now cbn|now cbn|now cbn].
    Qed.
    Lemma f_props_of_edges name es : rsafe fine (p_props_of_edges H dec name es).
    Proof.
      induction es as [|e es IH]; [cbn; auto|]. cbn [p_props_of_edges].
      eapply f_bind with (Q1 := fine); [| |now cbn|now cbn|now cbn|now cbn].
      - destruct name as [n|].
        + eapply f_bind with (Q1 := fine); [leaf|now cbn|now cbn|now cbn|now cbn|now cbn].
        + eapply f_bind with (Q1 := alls); [| |now cbn|now cbn|now cbn|now cbn].
          * intros d ix' _ HJ. apply JF in HJ. cbn. apply alls_props, HJ.
          * intros it Hit. eapply f_bind with (Q1 := fine); [cbn; now apply fine_collect|now cbn|now cbn|now cbn|now cbn|now cbn].
      - intros props _. eapply f_bind; [exact IH|now cbn|now cbn|now cbn|now cbn|now cbn].
    Qed.

    Lemma f_indexed {A} (p : prog (option (iter A))) : rsafe allso p -> rsafe fine (p_indexed_or_err p).
    Proof.
      intros R. eapply f_bind; [exact R| |now cbn|now cbn|now cbn|now cbn]. intros [it|] Hit; cbn in *; auto. now apply fine_collect.
    Qed.

    (** Collect, then push the result. *)
    Lemma f_push {A} (it : iter A) (f : list A -> outv) out : Forall fine it ->
      rsafe some (let! l := PRet (collect it) in PRet (Ok (f l :: out))).
    Proof.
      intros F. eapply f_bind with (Q1 := fine); [now apply fine_collect| |now cbn|now cbn|now cbn|now cbn]. now cbn.
    Qed.

    Lemma f_query q : g = GNone -> forall out, rsafe some (p_query H dec q out).
    Proof.
      intros Hg. assert (forall q (f : outv -> list outv -> prog (list outv)),
                (forall out, rsafe some (p_query H dec q out)) -> (forall v rest, rsafe some (f v rest)) ->
                forall out, rsafe some (let! out1 := p_query H dec q out in let! (piped, out2) := PRet (pop out1) in f piped out2)) as Pop.
      { intros q0 f IH F out. eapply f_bind; [apply IH| |now cbn|now cbn|now cbn|now cbn]. intros out1 Ho.
        destruct out1 as [|v rest]; [easy|]. cbn. apply F. }
      induction q; intros out; cbn [p_query].
      - eapply f_bind with (Q1 := alls); [leaf| |now cbn|now cbn|now cbn|now cbn]. intros it Hit. now apply f_push.
      - eapply f_bind with (Q1 := alls); [destruct start; leaf| |now cbn|now cbn|now cbn|now cbn]. intros it Hit.
        apply f_push. now apply fine_takeN, fine_filter.
      - eapply f_bind; [apply f_specific_vertices| |now cbn|now cbn|now cbn|now cbn]. intros it Hit. now apply f_push.
      - eapply f_bind; [apply f_indexed, f_vids, Hg| |now cbn|now cbn|now cbn|now cbn]. intros ids _.
        eapply f_bind; [apply f_specific_vertices| |now cbn|now cbn|now cbn|now cbn]. intros it Hit. now apply f_push.
      - eapply f_bind; [apply f_indexed, f_vidsv, Hg| |now cbn|now cbn|now cbn|now cbn]. intros ids _.
        eapply f_bind; [apply f_specific_vertices| |now cbn|now cbn|now cbn|now cbn]. intros it Hit. now apply f_push.
      - eapply f_bind with (Q1 := alls); [leaf| |now cbn|now cbn|now cbn|now cbn]. intros it Hit. now apply f_push.
      - eapply f_bind; [apply f_specific_edges| |now cbn|now cbn|now cbn|now cbn]. intros it Hit. now apply f_push.
      - eapply f_bind; [apply f_indexed, f_eids, Hg|now cbn|now cbn|now cbn|now cbn|now cbn].
      - eapply f_bind; [apply f_indexed, f_eidsv, Hg|now cbn|now cbn|now cbn|now cbn|now cbn].
      - apply Pop; [exact IHq|]. intros v rest. eapply f_bind with (Q1 := fine); [|now cbn|now cbn|now cbn|now cbn|now cbn].
        destruct v; try (cbn; auto; fail); unfold pmap.
        + eapply f_bind; [apply f_pipe_vertices; unfold lenN; cbn; lia|now cbn|now cbn|now cbn|now cbn|now cbn].
        + eapply f_bind; [apply f_pipe_edges|now cbn|now cbn|now cbn|now cbn|now cbn].
      - apply Pop; [exact IHq|]. intros v rest. eapply f_bind with (Q1 := fine); [|now cbn|now cbn|now cbn|now cbn|now cbn].
        destruct v; try (cbn; auto; fail); unfold pmap.
        + eapply f_bind; [apply f_props_of_vertices|now cbn|now cbn|now cbn|now cbn|now cbn].
        + eapply f_bind; [apply f_props_of_edges|now cbn|now cbn|now cbn|now cbn|now cbn].
      - apply Pop; [exact IHq|]. intros v rest. eapply f_bind with (Q1 := fine); [|now cbn|now cbn|now cbn|now cbn|now cbn].
        destruct v; try (cbn; auto; fail); (eapply f_bind; [apply f_indexed; (apply f_vids, Hg || apply f_eids, Hg)|now cbn|now cbn|now cbn|now cbn|now cbn]).
      - apply Pop; [exact IHq|]. intros v rest. eapply f_bind with (Q1 := fine); [|now cbn|now cbn|now cbn|now cbn|now cbn].
        destruct v; try (cbn; auto; fail); (eapply f_bind; [apply f_indexed; (apply f_vidsv, Hg || apply f_eidsv, Hg)|now cbn|now cbn|now cbn|now cbn|now cbn]).
      - apply (Pop q (fun v rest => PRet (Ok (v :: rest)))); [exact IHq|]. now cbn.
      - assert (forall out, rsafe some (let! out1 := p_query H dec q out in let! (piped, out2) := PRet (pop out1) in
                   let! n := match piped with
                             | Vertices l => PRet (Ok (lenN l)) | Edges l => PRet (Ok (lenN l))
                             | VertexProperties l => PRet (Ok (lenN l)) | EdgeProperties l => PRet (Ok (lenN l))
                             | Count _ => PRet (Err OperationOnQuery)
                             end in PRet (Ok (Count n :: re_export q piped out2)))) as G.
        { apply Pop; [exact IHq|]. intros v rest. destruct v; cbn; easy. }
        destruct q; try exact (G out); cbn; easy.
    Qed.

    Lemma f_each {A} (l : list (outcome A)) f : Forall fine l -> (forall a, In (Ok a) l -> rsafe fine (f a)) -> rsafe fine (p_each l f).
    Proof.
      induction 1 as [|x l Hx Hl IH]; intros E; [cbn; auto|]. cbn [p_each].
      eapply f_bind with (Q1 := fun y => y = x /\ fine y); [now cbn| |now intros ? [_ ?]|now intros [_ ?]|now cbn|now cbn].
      intros a [<- _]. eapply f_bind; [apply E; now left| |now cbn|now cbn|now cbn|now cbn]. intros b _.
      eapply f_bind; [apply IH; intros; apply E; now right| |now cbn|now cbn|now cbn|now cbn]. now cbn.
    Qed.
    Lemma f_over {A} (l : list A) f : (forall a, rsafe fine (f a)) -> rsafe fine (p_over l f).
    Proof.
      intros E. apply f_each; [|auto]. apply Forall_forall. intros x Hx. apply in_map_iff in Hx as (y & <- & _). exact I.
    Qed.
    Lemma f_vprop_delete ix id n : rsafe fine (p_vprop_delete H dec ix id n).
    Proof.
      unfold p_vprop_delete. eapply f_bind with (Q1 := fine); [|now cbn|now cbn|now cbn|now cbn|now cbn].
      destruct (mem n ix); [|cbn; auto]. eapply f_bind with (Q1 := fine); [leaf|now cbn|now cbn|now cbn|now cbn|now cbn].
    Qed.
    Lemma f_eprop_delete ix e n : rsafe fine (p_eprop_delete H dec ix e n).
    Proof.
      unfold p_eprop_delete. eapply f_bind with (Q1 := fine); [|now cbn|now cbn|now cbn|now cbn|now cbn].
      destruct (mem n ix); [|cbn; auto]. eapply f_bind with (Q1 := fine); [leaf|now cbn|now cbn|now cbn|now cbn|now cbn].
    Qed.
    Lemma f_vprop_set ix id n v : rsafe fine (p_vprop_set H enc dec ix id n v).
    Proof.
      unfold p_vprop_set. eapply f_bind with (Q1 := fine); [|now cbn|now cbn|now cbn|now cbn|now cbn].
      destruct (mem n ix); [apply f_vprop_delete|cbn; auto].
    Qed.
    Lemma f_eprop_set ix e n v : rsafe fine (p_eprop_set H enc dec ix e n v).
    Proof.
      unfold p_eprop_set. eapply f_bind with (Q1 := fine); [|now cbn|now cbn|now cbn|now cbn|now cbn].
      destruct (mem n ix); [apply f_eprop_delete|cbn; auto].
    Qed.
    Lemma f_edge_delete ix e : rsafe fine (p_edge_delete H dec ix e).
    Proof.
      unfold p_edge_delete. eapply f_bind with (Q1 := alls); [leaf| |now cbn|now cbn|now cbn|now cbn]. intros l Hl.
      eapply f_bind; [apply f_each; [exact Hl|intros; apply f_eprop_delete]|now cbn|now cbn|now cbn|now cbn|now cbn].
    Qed.
    Lemma f_vertex_delete ix id : rsafe fine (p_vertex_delete H dec ix id).
    Proof.
      assert (forall l, Forall fine l -> (forall e, In (Ok e) l -> eout e = id \/ okpanic) ->
                rsafe fine (p_each l (fun e => if eqb (eout e) id then p_edge_delete H dec ix e else PRet Panic))) as E.
      { intros l F O. apply f_each; [exact F|]. intros e He. destruct (eqb (eout e) id) eqn:Q; [apply f_edge_delete|].
        cbn. destruct (O e He) as [<-|P]; [|exact P]. rewrite eqb_refl in Q. discriminate. }
      assert (forall (f : db -> iter edge), (forall d, reads_fine d -> Forall fine (f d) /\ forall e, In (Ok e) (f d) -> eout e = id \/ okpanic) ->
                rsafe (fun x => match x with Ok l => Forall fine l /\ forall e, In (Ok e) l -> eout e = id \/ okpanic | Err e => okerr e | Panic => okpanic end)
                      (rd (fun d => Ok (f d)))) as L.
      { intros f F d ix' _ HJ. apply JF in HJ. cbn. auto. }
      unfold p_vertex_delete. eapply f_bind with (Q1 := alls); [leaf| |now cbn|now cbn|now cbn|now cbn]. intros l1 H1.
      eapply f_bind; [apply f_each; [exact H1|intros; apply f_vprop_delete]| |now cbn|now cbn|now cbn|now cbn]. intros b1 _.
      eapply f_bind; [apply (L (fun d => edges_for_root H (d_edges d) id))| |now cbn|now cbn|now cbn|now cbn].
      { intros d HF. split; [apply HF|]. intros e. apply HF. }
      intros l2 [F2 O2]. eapply f_bind; [apply E; [exact F2|exact O2]| |now cbn|now cbn|now cbn|now cbn]. intros b2 _.
      eapply f_bind; [apply (L (fun d => edges_for_root H (d_reversed d) id))| |now cbn|now cbn|now cbn|now cbn].
      { intros d HF. split; [apply HF|]. intros e. apply HF. }
      intros l3 [F3 O3]. eapply f_bind; [apply E; [exact F3|exact O3]|now cbn|now cbn|now cbn|now cbn|now cbn].
    Qed.
    Lemma f_bulk_item ix it : rsafe fine (p_bulk_item H enc dec ix it).
    Proof. destruct it; cbn [p_bulk_item]; [cbn; auto|cbn; auto|apply f_vprop_set|apply f_eprop_set]. Qed.
  End Reads.
End Fine.

(** ** Every call keeps an invariant that every piece keeps *)

Section Calls.
  Variable H : list byte -> N.
  Variable enc : json -> bytes.
  Variable dec : bytes -> option json.
  Variable P : json -> Prop.
  Variable J : db -> oset ident -> Prop.
  Variable okerr : renv -> error -> Prop.
  Variable okpanic : Prop.
  Hypothesis ok_q : forall e, okerr e OperationOnQuery.
  Hypothesis ok_n : forall e, okerr e NotIndexed.
  Hypothesis ok_u : forall e, okerr e UuidTaken.
  Hypothesis ok_d : forall e, wok e = false -> okerr e EDatastore.
  Hypothesis JF : forall e d ix, J d ix -> reads_fine H dec (okerr e) okpanic d.
  Hypothesis JP : forall ix b d, piece H enc P ix b -> J d ix -> J (apply_batch b d) ix.
  Hypothesis JI : forall d ix n, J d ix -> mem n ix = false -> J d (add n ix).

  Lemma J_pieces ix b : pieces H enc P ix b -> forall d, J d ix -> J (apply_batch b d) ix.
  Proof. induction 1; intros d Hd; [exact Hd|]. rewrite apply_batch_app. eauto. Qed.

  Section Env.
  Variable e : renv.
  Notation fine := (fine (okerr e) okpanic).
  Notation safe := (safe J e).

  Lemma c_write {A} g ix (b : batch) (x : A) : (forall d ix', knows g ix ix' -> J d ix' -> pieces H enc P ix' b) ->
    safe g ix fine (PWrite b (PRet (Ok x))).
  Proof.
    intros Hb. cbn. split; [|apply ok_d]. intros _. split; [|exact I]. intros d ix' K Hd. eapply J_pieces; eauto.
  Qed.

  Lemma c_guarded g ix f : g = GNone ->
    (forall ix', rsafe J GShared ix' (built H enc P ix') (f ix')) ->
    (forall ix', rsafe J GShared ix' fine (f ix')) ->
    safe g ix fine (p_guarded f).
  Proof.
    intros Hg B F. split; [exact Hg|]. intros d ix' Hd. eapply safe_bind with (Q1 := fun x => built H enc P ix' x /\ fine x).
    - apply rsafe_and; auto.
    - intros b [Hb _]. apply c_write. intros d' ix2 -> _. exact Hb.
    - intros er [_ Hx]. exact Hx.
    - intros [_ Hx]. exact Hx.
  Qed.

  Lemma c_delete_vertices g ix vs : g = GNone -> safe g ix fine (p_delete_vertices H dec vs).
  Proof.
    intros Hg. apply c_guarded; [exact Hg|..]; intros.
    - apply s_over. intros. apply s_vertex_delete.
    - apply f_over. intros. eapply f_vertex_delete; eauto.
  Qed.
  Lemma c_delete_edges g ix es : g = GNone -> safe g ix fine (p_delete_edges H dec es).
  Proof.
    intros Hg. apply c_guarded; [exact Hg|..]; intros.
    - apply s_over. intros x _. eapply rsafe_bind; [apply s_rd_any| |now cbn|now cbn].
      intros [t|] _; [apply s_edge_delete|cbn; constructor].
    - apply f_over. intros x. eapply rsafe_bind with (Q1 := fine); [| |now cbn|now cbn].
      + intros d i _ HJ. apply (JF e) in HJ. cbn. apply HJ.
      + intros [t|] _; [eapply f_edge_delete; eauto|cbn; auto].
  Qed.
  Lemma c_delete_vps g ix ps : g = GNone -> safe g ix fine (p_delete_vertex_properties H dec ps).
  Proof.
    intros Hg. apply c_guarded; [exact Hg|..]; intros.
    - apply s_over. intros. apply s_vprop_delete.
    - apply f_over. intros. eapply f_vprop_delete; eauto.
  Qed.
  Lemma c_delete_eps g ix ps : g = GNone -> safe g ix fine (p_delete_edge_properties H dec ps).
  Proof.
    intros Hg. apply c_guarded; [exact Hg|..]; intros.
    - apply s_over. intros. apply s_eprop_delete.
    - apply f_over. intros. eapply f_eprop_delete; eauto.
  Qed.
  Lemma c_set_vps g ix ids n v : g = GNone -> P v -> safe g ix fine (p_set_vertex_properties H enc dec ids n v).
  Proof.
    intros Hg Pv. apply c_guarded; [exact Hg|..]; intros.
    - apply s_over. intros. now apply s_vprop_set.
    - apply f_over. intros. eapply f_vprop_set; eauto.
  Qed.
  Lemma c_set_eps g ix es n v : g = GNone -> P v -> safe g ix fine (p_set_edge_properties H enc dec es n v).
  Proof.
    intros Hg Pv. apply c_guarded; [exact Hg|..]; intros.
    - apply s_over. intros. now apply s_eprop_set.
    - apply f_over. intros. eapply f_eprop_set; eauto.
  Qed.
  Lemma c_bulk g ix items : g = GNone -> Forall (writes_item P) items -> safe g ix fine (p_bulk_insert H enc dec items).
  Proof.
    intros Hg W. rewrite Forall_forall in W. apply c_guarded; [exact Hg|..]; intros.
    - apply s_over. intros. apply s_bulk_item. auto.
    - apply f_over. intros. eapply f_bulk_item; eauto.
  Qed.
  Lemma c_create_vertex g ix v : safe g ix fine (p_create_vertex H v).
  Proof.
    intros d ix' _ _. cbn [pbind]. destruct (vertex_exists H d (vid v)); [exact I|].
    apply c_write. intros. apply pieces_one. constructor.
  Qed.
  Lemma c_create_edge g ix x : safe g ix fine (p_create_edge H x).
  Proof.
    intros d ix' _ _. cbn [pbind]. destruct (vertex_exists H d (eout x)); [|exact I]. cbn [negb].
    intros d1 ix1 _ _. cbn [pbind]. destruct (vertex_exists H d1 (ein x)); [|exact I]. cbn [negb].
    intros d2 ix2 _ _. cbn [pbind]. apply c_write. intros. apply pieces_edge_set.
  Qed.

  Lemma c_index g ix n : g = GNone -> safe g ix fine (p_index_property H dec e n).
  Proof.
    intros Hg. split; [exact Hg|]. intros d0 ix0 Hd0. destruct (mem n ix0) eqn:M; [exact I|]. cbv zeta.
    split; [reflexivity|]. split; [intros d Hd; now apply JI|]. set (ix1 := add n ix0).
    eapply safe_bind with (Q1 := alls (okerr e) okpanic); [| |now cbn|now cbn].
    { intros d i _ HJ. apply (JF e) in HJ. cbn. apply HJ. }
    intros vs Hvs. eapply safe_bind with (Q1 := fun x => built H enc P ix1 x /\ fine x).
    { apply rsafe_and.
      - apply s_each. intros v _. eapply rsafe_bind; [apply s_rd_any| |now cbn|now cbn].
        intros [x|] _; cbn; [apply pieces_one|]; constructor.
      - eapply f_each; [exact Hvs|]. intros v _. eapply rsafe_bind with (Q1 := fine); [|now cbn|now cbn|now cbn].
        intros d i _ HJ. apply (JF e) in HJ. cbn. apply HJ. }
    2:{ intros er [_ Hx]. exact Hx. } 2:{ intros [_ Hx]. exact Hx. }
    intros b1 [B1 _]. eapply safe_bind with (Q1 := alls (okerr e) okpanic); [| |now cbn|now cbn].
    { intros d i _ HJ. apply (JF e) in HJ. cbn. apply HJ. }
    intros es Hes. eapply safe_bind with (Q1 := fun x => built H enc P ix1 x /\ fine x).
    { apply rsafe_and.
      - apply s_each. intros v _. eapply rsafe_bind; [apply s_rd_any| |now cbn|now cbn].
        intros [x|] _; cbn; [apply pieces_one|]; constructor.
      - eapply f_each; [exact Hes|]. intros v _. eapply rsafe_bind with (Q1 := fine); [|now cbn|now cbn|now cbn].
        intros d i _ HJ. apply (JF e) in HJ. cbn. apply HJ. }
    2:{ intros er [_ Hx]. exact Hx. } 2:{ intros [_ Hx]. exact Hx. }
    intros b2 [B2 _]. apply c_write. intros d ix' -> _.
    apply (@ps_cons H enc P ix1 [_]); [constructor|]. now apply pieces_app.
  Qed.

  Lemma c_query g ix q out : g = GNone -> rsafe J g ix (some (okerr e) okpanic) (p_query H dec q out).
  Proof. intros Hg. eapply f_query; eauto. Qed.

  Theorem call_safe ix o : writes P o -> safe GNone ix fine (prog_of H enc dec e o).
  Proof.
    assert (forall q (f : outv -> prog res), (forall v, safe GNone ix fine (f v)) ->
              safe GNone ix fine (let! out := p_query H dec q [] in let! (v, _) := PRet (pop out) in f v)) as Qu.
    { intros q f F. eapply safe_bind; [now apply c_query| |now cbn|now cbn]. intros out Ho.
      destruct out as [|v rest]; [easy|]. cbn. apply F. }
    destruct o; cbn [prog_of writes]; intros W.
    - unfold pmap. eapply safe_map with (f := fun a => Ok (RBoolean a)); [apply c_create_vertex|now cbn|now cbn|now cbn].
    - eapply safe_map with (f := fun a : bool => if a then Ok (RUuid id) else Err UuidTaken); [apply c_create_vertex| |now cbn|now cbn].
      intros [] _; cbn; auto.
    - unfold pmap. eapply safe_map with (f := fun a => Ok (RBoolean a)); [apply c_create_edge|now cbn|now cbn|now cbn].
    - eapply safe_bind; [now apply c_query|now cbn|now cbn|now cbn].
    - apply Qu. intros v. destruct v; [now apply c_delete_vertices|now apply c_delete_edges|cbn; auto|now apply c_delete_vps|now apply c_delete_eps].
    - apply Qu. intros v. destruct v; try (cbn; auto; fail); [now apply c_set_vps|now apply c_set_eps].
    - now apply c_bulk.
    - now apply c_index.
    - cbn. destruct (wok e) eqn:We; cbn; auto.
    - now apply c_delete_vertices.
    - now apply c_delete_edges.
    - now apply c_delete_vps.
    - now apply c_delete_eps.
    - now apply c_set_vps.
    - now apply c_set_eps.
  Qed.
  End Env.

  (** In every reachable configuration. *)
  Theorem calls_reach E s k : J (r_db s) (r_indexed s) -> rreach H enc dec E s k -> all_good (writes P) (rc_hist k) ->
    J (rc_db k) (rc_ix k) /\
    (forall c r, In (Ret c r) (rc_hist k) -> exists e, E e /\ fine (okerr e) okpanic r) /\
    exclusive (rc_threads k).
  Proof.
    intros J0 R G.
    destruct (@safe_reach J H enc dec (writes P) (fun e => @fine (okerr e) okpanic res) E) with (s := s) (k := k) as [A B C D]; auto.
    intros e o ix W. now apply call_safe.
  Qed.
End Calls.
