(** * Concurrent requests to a server over RocksDB.

    proto/src/server.rs: every request is handled by its own task.  The handler
    converts the request, makes at most one library call on a thread of the
    blocking pool, and converts its result.  Library calls of different requests
    interleave as in RdbProg.v; conversions depend on the request and on the
    call's result only. *)
From Verif Require Import Base OMap Json Types Util Db Rdb Spec Mem MemFacts RdbConc Foot RdbApart Proto Server Conc PluginProg.
From Verif Require RdbProg RdbLive.

Set Implicit Arguments.
Local Open Scope list_scope.
Local Notation bytes := (list byte).

(** ** Adding calls that neither depend on the state nor change it *)

Lemma nth_before {A} (l : list A) x y : before l x y <-> exists i j, (i < j)%nat /\ nth_error l i = Some x /\ nth_error l j = Some y.
Proof.
  split.
  - intros (a & b & c & ->). exists (length a), (S (length a + length b)). conj; [lia|..].
    + rewrite nth_error_app2, Nat.sub_diag by lia. reflexivity.
    + rewrite nth_error_app2 by lia. replace (S (length a + length b) - length a)%nat with (S (length b)) by lia.
      cbn [nth_error]. rewrite nth_error_app2, Nat.sub_diag by lia. reflexivity.
  - intros (i & j & Lt & Hi & Hj). destruct (nth_error_split _ _ Hj) as (l1 & l2 & -> & Ll). rewrite nth_error_app1 in Hi by lia.
    destruct (nth_error_split _ _ Hi) as (l3 & l4 & -> & _). exists l3, l4, l2. now rewrite <- app_assoc.
Qed.

Lemma before_insert {A} (l1 l2 : list A) z x y : before (l1 ++ l2) x y -> before (l1 ++ z :: l2) x y.
Proof.
  rewrite !nth_before. intros (i & j & L & Hi & Hj).
  set (up := fun n => if (n <? length l1)%nat then n else S n).
  assert (forall n v, nth_error (l1 ++ l2) n = Some v -> nth_error (l1 ++ z :: l2) (up n) = Some v) as K.
  { intros n v Hn. unfold up. destruct (Nat.ltb_spec n (length l1)) as [H|H].
    - rewrite nth_error_app1 in * by lia. exact Hn.
    - rewrite nth_error_app2 in * by lia. replace (S n - length l1)%nat with (S (n - length l1)) by lia. exact Hn. }
  exists (up i), (up j). conj; auto. unfold up. destruct (Nat.ltb_spec i (length l1)), (Nat.ltb_spec j (length l1)); lia.
Qed.

Section Insert.
  Variables (Op Res St Env : Type).
  Variable step : St -> Env * Op -> Res * St.
  Variable h : list (gevent Op Res).
  Variables s s' : St.
  Notation gcall := (gcall Op Res Env).
  Notation id := (@c_id Op Res Env).

  Definition inv_at i c t o := nth_error h i = Some (Inv c t o).
  Definition ret_at i c r := nth_error h i = Some (Ret c r).
  Hypothesis once : forall i j c t o t' o', inv_at i c t o -> inv_at j c t' o' -> i = j.
  Hypothesis asked_first : forall j c r, ret_at j c r -> exists i t o, (i < j)%nat /\ inv_at i c t o.

  (** Call [c] returned before call [d] was invoked. *)
  Definition rt (c d : nat) : Prop := exists r t o, before h (Ret c r) (Inv d t o).

  Lemma rt_trans a b c : rt a b -> rt b c -> rt a c.
  Proof.
    intros (r & t & o & B) (r2 & t2 & o2 & B2). apply nth_before in B as (i & j & L & R & I). apply nth_before in B2 as (i2 & j2 & L2 & R2 & I2).
    destruct (asked_first R2) as (k & tk & ok & Lk & Ik). pose proof (once Ik I). exists r, t2, o2. apply nth_before. exists i, j2. conj; auto. lia.
  Qed.
  Lemma rt_irrefl a : ~ rt a a.
  Proof.
    intros (r & t & o & B). apply nth_before in B as (i & j & L & R & I). destruct (asked_first R) as (k & tk & ok & Lk & Ik).
    pose proof (once Ik I). lia.
  Qed.
  Definition invokes (d : nat) (l : list (gevent Op Res)) : bool := existsb (fun x => match x with Inv c _ _ => Nat.eqb c d | _ => false end) l.
  Fixpoint rtb (c d : nat) (l : list (gevent Op Res)) : bool :=
    match l with
    | [] => false
    | x :: r => match x with Ret c' _ => Nat.eqb c' c && invokes d r | _ => false end || rtb c d r
    end.
  Lemma rtb_spec c d l : rtb c d l = true <-> exists r t o, before l (Ret c r) (Inv d t o).
  Proof.
    induction l as [|x l IH]; cbn [rtb].
    - split; [discriminate|]. intros (r & t & o & a & b & e & X). destruct a; discriminate.
    - rewrite orb_true_iff, IH. split.
      + intros [X|(r & t & o & a & b & e & ->)].
        * destruct x as [|c' r]; [discriminate|]. apply andb_true_iff in X as [X Y]. apply Nat.eqb_eq in X. subst.
          unfold invokes in Y. apply existsb_exists in Y as (y & Hy & Y). destruct y as [d' t o|]; [|discriminate]. apply Nat.eqb_eq in Y. subst.
          apply in_split in Hy as (a & b & ->). exists r, t, o, [], a, b. reflexivity.
        * exists r, t, o, (x :: a), b, e. reflexivity.
      + intros (r & t & o & a & b & e & X). destruct a as [|y a]; cbn [app] in X; inversion X; subst.
        * left. rewrite Nat.eqb_refl. cbn [andb]. unfold invokes. apply existsb_exists. exists (Inv d t o).
          split; [apply in_or_app; right; now left|apply Nat.eqb_refl].
        * right. exists r, t, o, a, b, e. reflexivity.
  Qed.
  Lemma rt_dec c d : {rt c d} + {~ rt c d}.
  Proof. destruct (rtb c d h) eqn:E; [left; now apply rtb_spec|right]. intros R. apply rtb_spec in R. congruence. Qed.

  (** As [explains], for the calls in [P] only. *)
  Record explains_some (P : nat -> Prop) (l : list gcall) : Prop := {
    es_once : NoDup (map id l);
    es_complete : forall c t o r, P c -> In (Inv c t o) h -> In (Ret c r) h -> exists e, In (Call c e o r) l;
    es_sound : forall k, In k l -> P (id k) /\ (exists t, In (Inv (id k) t (c_op k)) h) /\ (forall r, In (Ret (id k) r) h -> r = c_res k);
    es_legal : sequential step s l s';
    es_order : forall k k', rt (id k) (id k') -> In k l -> In k' l -> before l k k' }.

  Lemma last_such {A} (Q : A -> Prop) (dec : forall a, {Q a} + {~ Q a}) (l : list A) :
    exists l1 l2, l = l1 ++ l2 /\ (forall a, In a l2 -> ~ Q a) /\ (l1 = [] \/ exists l0 y, l1 = l0 ++ [y] /\ Q y).
  Proof.
    induction l as [|y l IH] using rev_ind.
    - exists [], []. conj; auto.
    - destruct (dec y) as [q|q].
      + exists (l ++ [y]), []. rewrite app_nil_r. conj; auto. right. eauto.
      + destruct IH as (l1 & l2 & -> & N & F). exists l1, (l2 ++ [y]). rewrite app_assoc. conj; auto.
        intros a Ha. apply in_app_or in Ha as [Ha|[<-|[]]]; auto.
  Qed.

  Lemma place P l x : explains_some P l -> exists l1 l2, l = l1 ++ l2 /\
    (forall k, In k l2 -> ~ rt (id k) x) /\ (forall k, In k l1 -> ~ rt x (id k)).
  Proof.
    intros X. destruct (last_such (fun k : gcall => rt (id k) x) (fun k => rt_dec (id k) x) l) as (l1 & l2 & -> & N & F).
    exists l1, l2. conj; auto. intros k Hk R. destruct F as [->|(l0 & y & -> & Ry)]; [destruct Hk|].
    pose proof (rt_trans Ry R) as Ryk.
    assert (before ((l0 ++ [y]) ++ l2) y k) as B.
    { apply (es_order X); auto; apply in_or_app; left; [apply in_or_app; right; now left|exact Hk]. }
    apply in_app_or in Hk as [Hk|[<-|[]]]; [|now apply rt_irrefl in Ryk].
    pose proof (NoDup_map_inv _ _ (es_once X)) as ND.
    apply nth_before in B as (i & j & L & Hi & Hj).
    apply In_nth_error in Hk as (n & Hn). pose proof (proj1 (nth_error_Some l0 n)) as Ln. rewrite Hn in Ln. specialize (Ln ltac:(discriminate)).
    assert (nth_error ((l0 ++ [y]) ++ l2) n = Some k) as Hk2 by (rewrite <- app_assoc, nth_error_app1; auto).
    assert (nth_error ((l0 ++ [y]) ++ l2) (length l0) = Some y) as Hy2.
    { rewrite <- app_assoc, nth_error_app2, Nat.sub_diag by lia. reflexivity. }
    rewrite NoDup_nth_error in ND.
    assert (j = n) as -> by (apply ND; [apply nth_error_Some; congruence|congruence]).
    assert (i = length l0) as -> by (apply ND; [apply nth_error_Some; congruence|congruence]). lia.
  Qed.

  Lemma sequential_idle l1 : forall l2 k a b, (forall st, step st (c_env k, c_op k) = (c_res k, st)) ->
    sequential step a (l1 ++ l2) b -> sequential step a (l1 ++ k :: l2) b.
  Proof.
    induction l1 as [|y l1 IH]; intros l2 k a b N; cbn [app sequential].
    - intros Q. exists a. auto.
    - intros (s1 & E & Q). exists s1. auto.
  Qed.

  Lemma insert P l c t o r e : explains_some P l -> ~ P c -> In (Inv c t o) h -> (forall r', In (Ret c r') h -> r' = r) ->
    (forall st, step st (e, o) = (r, st)) -> exists l', explains_some (fun x => P x \/ x = c) l'.
  Proof.
    intros X NP Hi Hr Hs. destruct (place c X) as (l1 & l2 & El & N2 & N1). set (z := Call c e o r : gcall).
    exists (l1 ++ z :: l2).
    assert (forall k, In k (l1 ++ z :: l2) <-> k = z \/ In k l) as HI.
    { intros k. subst l. rewrite !in_app_iff. cbn [In]. split; [intros [H|[H|H]]; auto|intros [H|[H|H]]; auto]. }
    split.
    - rewrite map_app. cbn [map]. apply NoDup_Add with (a := id z) (l := map id l).
      + subst l. rewrite map_app. apply Add_app.
      + split; [apply (es_once X)|]. intros H. apply in_map_iff in H as (k & Ek & Hk). destruct (es_sound X k Hk) as (Pk & _).
        rewrite Ek in Pk. exact (NP Pk).
    - intros c' t' o' r' [Pc|Ec] A B.
      + destruct (es_complete X _ _ _ _ Pc A B) as (e' & He). exists e'. apply HI. auto.
      + subst c'. exists e. apply HI. left. apply In_nth_error in A as (i & A). apply In_nth_error in Hi as (j & Hi).
        assert (i = j) as -> by exact (once A Hi). rewrite A in Hi. inversion Hi; subst. rewrite (Hr _ B). reflexivity.
    - intros k Hk. apply HI in Hk as [->|Hk].
      + cbn [c_id c_op c_res z]. conj; eauto.
      + destruct (es_sound X k Hk) as (Pk & I1 & R1). conj; auto.
    - apply sequential_idle; [exact Hs|]. subst l. exact (es_legal X).
    - intros k k' R Hk Hk'. apply HI in Hk. apply HI in Hk'. destruct Hk as [->|Hk], Hk' as [->|Hk'].
      + now apply rt_irrefl in R.
      + subst l. apply in_app_or in Hk' as [Hk'|Hk']; [now apply N1 in R|].
        apply in_split in Hk' as (a & b & ->). exists l1, a, b. reflexivity.
      + subst l. apply in_app_or in Hk as [Hk|Hk]; [|now apply N2 in R].
        apply in_split in Hk as (a & b & ->). exists a, b, l2. now rewrite <- app_assoc.
      + subst l. apply before_insert. now apply (es_order X).
  Qed.

  Lemma insert_all cs : forall P l, explains_some P l -> NoDup cs ->
    (forall c, In c cs -> ~ P c /\ exists t o r e, In (Inv c t o) h /\ (forall r', In (Ret c r') h -> r' = r) /\ (forall st, step st (e, o) = (r, st))) ->
    exists l', explains_some (fun x => P x \/ In x cs) l'.
  Proof.
    induction cs as [|c cs IH]; intros P l X ND A.
    - exists l. destruct X as [X1 X2 X3 X4 X5]. split; auto.
      + intros c t o r [H|[]]. now apply X2.
      + intros k Hk. destruct (X3 k Hk) as (? & ?). auto.
    - inversion ND as [|? ? Nc ND']; subst. destruct (A c (or_introl eq_refl)) as (NP & t & o & r & e & Hi & Hr & Hs).
      destruct (@insert _ _ _ _ _ _ _ X NP Hi Hr Hs) as (l1 & X1).
      destruct (IH _ l1 X1 ND') as (l2 & X2).
      { intros d Hd. destruct (A d (or_intror Hd)) as (NPd & R). split; [|exact R]. intros [X9| ->]; auto. }
      exists l2. destruct X2 as [Y1 Y2 Y3 Y4 Y5]. split; auto.
      + intros d t' o' r' Pd. apply Y2. destruct Pd as [Pd|[Pd|Pd]]; auto.
      + intros k Hk. destruct (Y3 k Hk) as (Pk & R). split; [|exact R]. destruct Pk as [[Pk|Pk]|Pk]; auto. right. now left.
        right. now right.
  Qed.
End Insert.

(** ** Lists of events *)

Lemma before_flat_map {A B} (f : A -> list B) l x y a b : before l x y -> In a (f x) -> In b (f y) -> before (flat_map f l) a b.
Proof.
  intros (l1 & l2 & l3 & ->) Ha Hb. apply in_split in Ha as (a1 & a2 & Ea). apply in_split in Hb as (b1 & b2 & Eb).
  exists (flat_map f l1 ++ a1), (a2 ++ flat_map f l2 ++ b1), (b2 ++ flat_map f l3).
  rewrite flat_map_app. cbn [flat_map]. rewrite flat_map_app. cbn [flat_map]. rewrite Ea, Eb. now rewrite <- !app_assoc.
Qed.
Lemma flat_map_before {A B} (f : A -> list B) l a b : (forall x, (length (f x) <= 1)%nat) -> before (flat_map f l) a b ->
  exists x y, before l x y /\ In a (f x) /\ In b (f y).
Proof.
  intros S. induction l as [|z l IH]; intros (l1 & l2 & l3 & E); cbn [flat_map] in E; [destruct l1; discriminate|].
  specialize (S z) as Sz. destruct (f z) as [|w [|w2 ws]] eqn:Fz; [|cbn [app] in E|cbn in Sz; lia].
  - destruct IH as (x & y & (m1 & m2 & m3 & ->) & Hx & Hy); [exists l1, l2, l3; exact E|]. exists x, y. conj; auto. exists (z :: m1), m2, m3. reflexivity.
  - destruct l1 as [|v l1]; cbn [app] in E; inversion E as [[Ew El]].
    + assert (In b (flat_map f l)) as Hb by (rewrite El; apply in_or_app; right; now left).
      apply in_flat_map in Hb as (y & Hy & Hb). exists z, y. conj; auto; [|rewrite Fz; now left].
      apply in_split in Hy as (m1 & m2 & ->). exists [], m1, m2. reflexivity.
    + destruct IH as (x & y & (m1 & m2 & m3 & ->) & Hx & Hy); [exists l1, l2, l3; exact El|]. exists x, y. conj; auto. exists (z :: m1), m2, m3. reflexivity.
Qed.
Lemma before_trans {A} (l : list A) x y z : (forall i j, nth_error l i = Some y -> nth_error l j = Some y -> i = j) ->
  before l x y -> before l y z -> before l x z.
Proof.
  intros U. rewrite !nth_before. intros (i & j & L & Hi & Hj) (i2 & j2 & L2 & Hi2 & Hj2). pose proof (U _ _ Hj Hi2). exists i, j2. conj; auto. lia.
Qed.

(** ** The server *)

Inductive jevent :=
| JReq (c : nat) (rq : request) (fresh : uuid)     (* request [c] arrives; [fresh] is the id it would draw *)
| JCall (c : nat) (rq : request) (fresh : uuid) (c' t : nat) (o : op)  (* its handler makes library call [c'] on thread [t] *)
| JBack (c' : nat) (r : outcome res)               (* library call [c'] returns *)
| JResp (c : nat) (r : srv response).              (* request [c] is answered *)

Record sconf := SConf { s_lib : RdbProg.rconfig; s_log : list jevent }.

Section Server.
  Variable H : bytes -> N.
  Variable alnum : N -> bool.
  Variable enc : json -> bytes.
  Variable dec : bytes -> option json.

  (** The response once the library call has returned [r] (Server.v); [r] does
      not matter for requests that make no call. *)
  Definition respond (fresh : uuid) (rq : request) (r : outcome res) : srv response :=
    fst (serve alnum enc dec (fun (_ : unit) (_ : unit * op) => (r, tt)) [] tt tt fresh rq).
  Notation call_of := (request_op alnum dec).

  (** One step of the server: a request arrives, its handler starts its library
      call, a library call goes on, a library call returns, a request that made
      a call is answered, a request that makes none is answered.  Simplification:
      a [bulk_insert] stream arrives as one request. *)
  Inductive sstep : sconf -> sconf -> Prop :=
  | SReq k c rq fresh : (forall rq' f', ~ In (JReq c rq' f') (s_log k)) ->
      sstep k (SConf (s_lib k) (s_log k ++ [JReq c rq fresh]))
  | SCall k lib c rq fresh t o : In (JReq c rq fresh) (s_log k) -> call_of fresh rq = Some o ->
      (forall rq' f' c' t' o', ~ In (JCall c rq' f' c' t' o') (s_log k)) ->
      RdbProg.rstep H enc dec (s_lib k) lib ->
      RdbProg.rc_hist lib = RdbProg.rc_hist (s_lib k) ++ [Inv (RdbProg.rc_next (s_lib k)) t o] ->
      sstep k (SConf lib (s_log k ++ [JCall c rq fresh (RdbProg.rc_next (s_lib k)) t o]))
  | SWork k lib : RdbProg.rstep H enc dec (s_lib k) lib -> RdbProg.rc_hist lib = RdbProg.rc_hist (s_lib k) ->
      sstep k (SConf lib (s_log k))
  | SBack k lib c' r : RdbProg.rstep H enc dec (s_lib k) lib -> RdbProg.rc_hist lib = RdbProg.rc_hist (s_lib k) ++ [Ret c' r] ->
      sstep k (SConf lib (s_log k ++ [JBack c' r]))
  | SResp k c rq fresh c' t o r : In (JCall c rq fresh c' t o) (s_log k) -> In (JBack c' r) (s_log k) ->
      (forall r', ~ In (JResp c r') (s_log k)) ->
      sstep k (SConf (s_lib k) (s_log k ++ [JResp c (respond fresh rq r)]))
  | SRefuse k c rq fresh : In (JReq c rq fresh) (s_log k) -> call_of fresh rq = None ->
      (forall r', ~ In (JResp c r') (s_log k)) ->
      sstep k (SConf (s_lib k) (s_log k ++ [JResp c (respond fresh rq Panic)])).

  Inductive sreach (E : renv -> Prop) (s : rstate) : sconf -> Prop :=
  | SReach0 : sreach E s (SConf (RdbProg.rconfig0 s) [])
  | SReachS k k' : sreach E s k -> sstep k k' -> RdbProg.envs E (s_lib k') -> sreach E s k'.

  (** What clients see, and what the library sees. *)
  Definition client_event (x : jevent) : list (gevent request (srv response)) :=
    match x with JReq c rq _ => [Inv c c rq] | JResp c r => [Ret c r] | _ => [] end.
  Definition lib_event (x : jevent) : list event :=
    match x with JCall _ _ _ c' t o => [Inv c' t o] | JBack c' r => [Ret c' r] | _ => [] end.
  Definition seen (l : list jevent) := flat_map client_event l.
  Definition made (l : list jevent) := flat_map lib_event l.

  (** The sequential server: requests handled one after the other. *)
  Definition srv_step (st : rstate) (x : (renv * uuid) * request) : srv response * rstate :=
    let '(e, fresh, rq) := x in serve alnum enc dec (rdb_step H enc dec) [] st e fresh rq.

  Lemma srv_call st e fresh rq o : call_of fresh rq = Some o ->
    srv_step st (e, fresh, rq) = (respond fresh rq (fst (rdb_step H enc dec st (e, o))), snd (rdb_step H enc dec st (e, o))).
  Proof.
    unfold srv_step, respond, request_op, serve.
    destruct rq; try discriminate; unfold converted, blocking; intros Eo;
      repeat match type of Eo with context [match ?x with _ => _ end] => destruct x; try discriminate end; inversion Eo; subst;
      destruct (rdb_step H enc dec st (e, _)) as [[?|?|] st']; reflexivity.
  Qed.
  Lemma srv_refuse st e fresh rq r : call_of fresh rq = None -> srv_step st (e, fresh, rq) = (respond fresh rq r, st).
  Proof.
    unfold srv_step, respond, request_op, serve.
    destruct rq; try discriminate; unfold converted, blocking; intros Eo; try reflexivity;
      repeat match type of Eo with context [match ?x with _ => _ end] => destruct x; try discriminate end; try reflexivity.
    destruct arg as [a|]; [|reflexivity]. destruct (of_json dec a); reflexivity.
  Qed.

  (** ** Logs *)

  Inductive wf_log : list jevent -> Prop :=
  | wl_nil : wf_log []
  | wl_req l c rq fresh : wf_log l -> (forall rq' f', ~ In (JReq c rq' f') l) -> wf_log (l ++ [JReq c rq fresh])
  | wl_call l c rq fresh c' t o : wf_log l -> In (JReq c rq fresh) l -> call_of fresh rq = Some o ->
      (forall rq' f' d t' o', ~ In (JCall c rq' f' d t' o') l) -> (forall d rq' f' t' o', ~ In (JCall d rq' f' c' t' o') l) ->
      wf_log (l ++ [JCall c rq fresh c' t o])
  | wl_back l c' r : wf_log l -> wf_log (l ++ [JBack c' r])
  | wl_resp l c rq fresh c' t o r : wf_log l -> In (JCall c rq fresh c' t o) l -> In (JBack c' r) l -> (forall r', ~ In (JResp c r') l) ->
      wf_log (l ++ [JResp c (respond fresh rq r)])
  | wl_refuse l c rq fresh : wf_log l -> In (JReq c rq fresh) l -> call_of fresh rq = None -> (forall r', ~ In (JResp c r') l) ->
      wf_log (l ++ [JResp c (respond fresh rq Panic)]).

  Lemma req_once l : wf_log l -> forall i j c rq f rq' f', nth_error l i = Some (JReq c rq f) -> nth_error l j = Some (JReq c rq' f') -> i = j.
  Proof.
    assert (forall l (x y : jevent) i, nth_error (l ++ [x]) i = Some y -> nth_error l i = Some y \/ (i = length l /\ y = x)) as Sn.
    { clear. intros l x y i Hn. destruct (Nat.lt_ge_cases i (length l)) as [L|L].
      - left. now rewrite nth_error_app1 in Hn by lia.
      - right. rewrite nth_error_app2 in Hn by lia. destruct (i - length l)%nat as [|n] eqn:En; cbn in Hn; [|destruct n; discriminate].
        inversion Hn. split; [lia|reflexivity]. }
    induction 1 as [|l c0 rq0 f0 W IH N| | | |]; intros i j c1 rq1 f1 rq2 f2 Hi Hj; try (destruct i; discriminate);
      apply Sn in Hi as [Hi|[-> Hi]]; apply Sn in Hj as [Hj|[-> Hj]]; try discriminate; try reflexivity; eauto.
    - inversion Hj; subst. exfalso. apply nth_error_In in Hi. eapply N; eauto.
    - inversion Hi; subst. exfalso. apply nth_error_In in Hj. eapply N; eauto.
  Qed.
  Lemma req_same {l c rq f rq' f'} : wf_log l -> In (JReq c rq f) l -> In (JReq c rq' f') l -> rq = rq' /\ f = f'.
  Proof.
    intros W A B. apply In_nth_error in A as (i & A). apply In_nth_error in B as (j & B). pose proof (req_once W _ _ A B). subst.
    rewrite A in B. inversion B. auto.
  Qed.
  Lemma resp_once l : wf_log l -> forall i j c r r', nth_error l i = Some (JResp c r) -> nth_error l j = Some (JResp c r') -> i = j.
  Proof.
    assert (forall l (x y : jevent) i, nth_error (l ++ [x]) i = Some y -> nth_error l i = Some y \/ (i = length l /\ y = x)) as Sn.
    { clear. intros l x y i Hn. destruct (Nat.lt_ge_cases i (length l)) as [L|L].
      - left. now rewrite nth_error_app1 in Hn by lia.
      - right. rewrite nth_error_app2 in Hn by lia. destruct (i - length l)%nat as [|n] eqn:En; cbn in Hn; [|destruct n; discriminate].
        inversion Hn. split; [lia|reflexivity]. }
    induction 1 as [| | | |l c0 rq0 f0 c' t o r0 W IH A B N|l c0 rq0 f0 W IH A B N]; intros i j c1 r1 r2 Hi Hj; try (destruct i; discriminate);
      apply Sn in Hi as [Hi|[-> Hi]]; apply Sn in Hj as [Hj|[-> Hj]]; try discriminate; try reflexivity; eauto.
    - inversion Hj; subst. exfalso. apply nth_error_In in Hi. eapply N; eauto.
    - inversion Hi; subst. exfalso. apply nth_error_In in Hj. eapply N; eauto.
    - inversion Hj; subst. exfalso. apply nth_error_In in Hi. eapply N; eauto.
    - inversion Hi; subst. exfalso. apply nth_error_In in Hj. eapply N; eauto.
  Qed.
  Lemma call_once l : wf_log l -> forall i j c rq f c' t o rq2 f2 c2 t2 o2, nth_error l i = Some (JCall c rq f c' t o) -> nth_error l j = Some (JCall c rq2 f2 c2 t2 o2) -> i = j.
  Proof.
    assert (forall l (x y : jevent) i, nth_error (l ++ [x]) i = Some y -> nth_error l i = Some y \/ (i = length l /\ y = x)) as Sn.
    { clear. intros l x y i Hn. destruct (Nat.lt_ge_cases i (length l)) as [L|L].
      - left. now rewrite nth_error_app1 in Hn by lia.
      - right. rewrite nth_error_app2 in Hn by lia. destruct (i - length l)%nat as [|n] eqn:En; cbn in Hn; [|destruct n; discriminate].
        inversion Hn. split; [lia|reflexivity]. }
    induction 1 as [| |l c0 rq0 f0 c0' t0 o0 W IH A B N N'| | |]; intros i j c1 rq1 f1 c1' t1 o1 rq2 f2 c2 t2 o2 Hi Hj; try (destruct i; discriminate);
      apply Sn in Hi as [Hi|[-> Hi]]; apply Sn in Hj as [Hj|[-> Hj]]; try discriminate; try reflexivity; eauto.
    - inversion Hj; subst. exfalso. apply nth_error_In in Hi. eapply N; eauto.
    - inversion Hi; subst. exfalso. apply nth_error_In in Hj. eapply N; eauto.
  Qed.
  Lemma call_ok l : wf_log l -> forall c rq f c' t o, In (JCall c rq f c' t o) l ->
    before l (JReq c rq f) (JCall c rq f c' t o) /\ call_of f rq = Some o.
  Proof.
    induction 1; intros c1 rq1 f1 c1' t1 o1 A; [destruct A|..]; apply in_app_or in A as [A|[A|[]]];
      try (destruct (IHwf_log _ _ _ _ _ _ A) as [B1 B2]; split; [now apply before_app_l|exact B2]); try discriminate.
    inversion A; subst. split; [now apply before_snoc|assumption].
  Qed.
  Lemma call_same l : wf_log l -> forall c rq f c' t o rq2 f2 c2 t2 o2, In (JCall c rq f c' t o) l -> In (JCall c rq2 f2 c2 t2 o2) l ->
    rq = rq2 /\ f = f2 /\ c' = c2 /\ t = t2 /\ o = o2.
  Proof.
    induction 1; intros c1 rq1 f1 c1' t1 o1 rq2 f2 c2 t2 o2 A B; [destruct A|..]; apply in_app_or in A as [A|[A|[]]]; apply in_app_or in B as [B|[B|[]]];
      try discriminate; eauto.
    - inversion B; subst. exfalso. solve [eapply H3; eassumption|eapply H4; eassumption].
    - inversion A; subst. exfalso. solve [eapply H3; eassumption|eapply H4; eassumption].
    - inversion A; inversion B; subst. conj; congruence.
  Qed.
  Lemma call_owner l : wf_log l -> forall c rq f c' t o d rq2 f2 t2 o2, In (JCall c rq f c' t o) l -> In (JCall d rq2 f2 c' t2 o2) l -> c = d.
  Proof.
    induction 1; intros c1 rq1 f1 c1' t1 o1 d rq2 f2 t2 o2 A B; [destruct A|..]; apply in_app_or in A as [A|[A|[]]]; apply in_app_or in B as [B|[B|[]]];
      try discriminate; eauto.
    - inversion B; subst. exfalso. solve [eapply H3; eassumption|eapply H4; eassumption].
    - inversion A; subst. exfalso. solve [eapply H3; eassumption|eapply H4; eassumption].
    - inversion A; inversion B; subst. congruence.
  Qed.
  Lemma resp_ok l : wf_log l -> forall c r, In (JResp c r) l ->
    (exists rq f c' t o r0, before l (JCall c rq f c' t o) (JResp c r) /\ before l (JBack c' r0) (JResp c r) /\ r = respond f rq r0) \/
    (exists rq f, before l (JReq c rq f) (JResp c r) /\ call_of f rq = None /\ r = respond f rq Panic).
  Proof.
    induction 1; intros c1 r1 A; [destruct A|..]; apply in_app_or in A as [A|[A|[]]];
      try (destruct (IHwf_log _ _ A) as [(rq1 & f1 & c1' & t1 & o1 & r0 & B1 & B2 & B3)|(rq1 & f1 & B1 & B2 & B3)];
           [left; exists rq1, f1, c1', t1, o1, r0; conj; auto; now apply before_app_l
           |right; exists rq1, f1; conj; auto; now apply before_app_l]); try discriminate.
    - inversion A; subst. left. exists rq, fresh, c', t, o, r. conj; auto; now apply before_snoc.
    - inversion A; subst. right. exists rq, fresh. conj; auto. now apply before_snoc.
  Qed.

  (** ** The library's history *)
  Notation rreach := (RdbProg.rreach H enc dec).
  Notation rstep := (RdbProg.rstep H enc dec).
  Notation hist := RdbProg.rc_hist.
  Notation next := RdbProg.rc_next.
  Notation threads := RdbProg.rc_threads.

  Lemma rstep_cases k k' : rstep k k' ->
    (exists t e o p, threads k t = RdbProg.RIdle /\ threads k' = upd (threads k) t (RdbProg.Running (next k) e RdbProg.GNone p) /\
       hist k' = hist k ++ [Inv (next k) t o] /\ next k' = S (next k)) \/
    (exists t c e g g' p p', threads k t = RdbProg.Running c e g p /\ threads k' = upd (threads k) t (RdbProg.Running c e g' p') /\
       hist k' = hist k /\ next k' = next k) \/
    (exists t c e g r, threads k t = RdbProg.Running c e g (RdbProg.PRet r) /\ threads k' = upd (threads k) t RdbProg.RIdle /\
       hist k' = hist k ++ [Ret c r] /\ next k' = next k).
  Proof.
    intros St. destruct St; cbn [RdbProg.rc_threads RdbProg.rc_hist RdbProg.rc_next];
      [left; do 4 eexists; conj; eauto; reflexivity
      |right; left; do 7 eexists; conj; eauto; reflexivity ..
      |right; right; do 5 eexists; conj; eauto; reflexivity].
  Qed.

  Record linv (k : RdbProg.rconfig) : Prop := {
    i_inv : forall c t o, In (Inv c t o) (hist k) -> (c < next k)%nat;
    i_ret : forall c r, In (Ret c r) (hist k) -> (c < next k)%nat;
    i_one : forall c t o t' o', In (Inv c t o) (hist k) -> In (Inv c t' o') (hist k) -> t = t' /\ o = o';
    i_run : forall t c e g p, threads k t = RdbProg.Running c e g p -> (exists o, In (Inv c t o) (hist k)) /\ forall r, ~ In (Ret c r) (hist k);
    i_done : forall c t o, In (Inv c t o) (hist k) -> (exists r, In (Ret c r) (hist k)) \/ exists e g p, threads k t = RdbProg.Running c e g p }.

  Lemma linv_step k k' : linv k -> rstep k k' -> linv k'.
  Proof.
    intros [A1 A2 A3 A4 A5] St. apply rstep_cases in St as [(t & e & o & p & Th & Th' & Hh & Nx)|[(t & c & e & g & g' & p & p' & Th & Th' & Hh & Nx)|(t & c & e & g & r & Th & Th' & Hh & Nx)]].
    - split; rewrite ?Th', ?Hh, ?Nx.
      + intros c1 t1 o1 B. apply in_app_or in B as [B|[B|[]]]; [apply A1 in B; lia|inversion B; subst; lia].
      + intros c1 r1 B. apply in_app_or in B as [B|[B|[]]]; [apply A2 in B; lia|discriminate].
      + intros c1 t1 o1 t2 o2 B C. apply in_app_or in B as [B|[B|[]]]; apply in_app_or in C as [C|[C|[]]]; eauto.
        * inversion C; subst. apply A1 in B. lia.
        * inversion B; subst. apply A1 in C. lia.
        * inversion B; inversion C; subst. split; congruence.
      + intros t1 c1 e1 g1 p1 B. unfold upd in B. destruct (Nat.eqb_spec t1 t) as [->|Ne].
        * inversion B; subst. split; [exists o; apply in_or_app; right; now left|]. intros r C. apply in_app_or in C as [C|[C|[]]]; [apply A2 in C; lia|discriminate].
        * destruct (A4 _ _ _ _ _ B) as [(o1 & C) D]. split; [exists o1; apply in_or_app; now left|].
          intros r F. apply in_app_or in F as [F|[F|[]]]; [exact (D _ F)|discriminate].
      + intros c1 t1 o1 B. apply in_app_or in B as [B|[B|[]]].
        * destruct (A5 _ _ _ B) as [(r & C)|(e1 & g1 & p1 & C)]; [left; exists r; apply in_or_app; now left|right].
          exists e1, g1, p1. unfold upd. destruct (Nat.eqb_spec t1 t) as [->|Ne]; [congruence|exact C].
        * inversion B; subst. right. unfold upd. rewrite Nat.eqb_refl. eauto.
    - split; rewrite ?Th', ?Hh, ?Nx; auto.
      + intros t1 c1 e1 g1 p1 B. unfold upd in B. destruct (Nat.eqb_spec t1 t) as [->|Ne]; [|eauto]. inversion B; subst. eauto.
      + intros c1 t1 o1 B. destruct (A5 _ _ _ B) as [C|(e1 & g1 & p1 & C)]; [now left|right].
        unfold upd. destruct (Nat.eqb_spec t1 t) as [->|Ne]; [|eauto]. rewrite Th in C. inversion C; subst. eauto.
    - destruct (A4 _ _ _ _ _ Th) as [(o & Io) Nr].
      split; rewrite ?Th', ?Hh, ?Nx.
      + intros c1 t1 o1 B. apply in_app_or in B as [B|[B|[]]]; [eauto|discriminate].
      + intros c1 r1 B. apply in_app_or in B as [B|[B|[]]]; [eauto|]. inversion B; subst. eauto.
      + intros c1 t1 o1 t2 o2 B C. apply in_app_or in B as [B|[B|[]]]; apply in_app_or in C as [C|[C|[]]]; try discriminate; eauto.
      + intros t1 c1 e1 g1 p1 B. unfold upd in B. destruct (Nat.eqb_spec t1 t) as [->|Ne]; [discriminate|].
        destruct (A4 _ _ _ _ _ B) as [(o1 & C) D]. split; [exists o1; apply in_or_app; now left|].
        intros r1 F. apply in_app_or in F as [F|[F|[]]]; [exact (D _ F)|]. inversion F; subst. destruct (A3 _ _ _ _ _ C Io). congruence.
      + intros c1 t1 o1 B. apply in_app_or in B as [B|[B|[]]]; [|discriminate].
        destruct (A5 _ _ _ B) as [(r1 & C)|(e1 & g1 & p1 & C)]; [left; exists r1; apply in_or_app; now left|].
        destruct (Nat.eq_dec t t1) as [<-|Ne].
        * left. rewrite Th in C. inversion C; subst. exists r. apply in_or_app. right. now left.
        * right. exists e1, g1, p1. unfold upd. destruct (Nat.eqb_spec t1 t); [congruence|exact C].
  Qed.
  Lemma linv_reach E s k : rreach E s k -> linv k.
  Proof.
    induction 1 as [|k k' R IH St En]; [|eauto using linv_step]. split; cbn; try easy; try (intros ? ? ? []); try (intros ? ? []); intros; contradiction.
  Qed.

  Lemma next_above E s k : RdbProg.rreach H enc dec E s k -> forall c t o, In (Inv c t o) (RdbProg.rc_hist k) -> (c < RdbProg.rc_next k)%nat.
  Proof.
    induction 1 as [|k k' R IH St En]; [easy|]. destruct St; cbn in *; intros c1 t1 o1 A; eauto; apply in_app_or in A as [A|[A|[]]]; eauto.
    - apply IH in A. lia.
    - inversion A; subst. lia.
    - discriminate.
  Qed.

  Lemma sreach_inv E s k : sreach E s k ->
    RdbProg.rreach H enc dec E s (s_lib k) /\ RdbProg.rc_hist (s_lib k) = made (s_log k) /\ wf_log (s_log k).
  Proof.
    induction 1 as [|k k' R (R1 & R2 & R3) St En].
    - cbn. conj; [constructor|reflexivity|constructor].
    - unfold made in *. destruct St; cbn [s_lib s_log] in *; rewrite ?flat_map_app; cbn [flat_map lib_event]; rewrite ?app_nil_r; conj; auto;
        try (eapply RdbProg.RReachS; eauto); try congruence.
      + now constructor.
      + constructor; auto. intros d rq' f' t' o' A.
        assert (In (Inv (RdbProg.rc_next (s_lib k)) t' o') (RdbProg.rc_hist (s_lib k))) as A2.
        { rewrite R2. apply in_flat_map. exists (JCall d rq' f' (RdbProg.rc_next (s_lib k)) t' o'). split; [exact A|now left]. }
        apply (next_above R1) in A2. lia.
      + now constructor.
      + econstructor; eauto.
      + constructor; auto.
  Qed.

  (** ** From the library's explanation to the clients' *)
  Section Lift.
    Variable l : list jevent.
    Hypothesis W : wf_log l.
    Variables s s' : rstate.
    Variable lc : list (call renv).
    Hypothesis X : explains (rdb_step H enc dec) s (made l) s' lc.
    Variable e0 : renv.    (* any environment: requests that make no call do not look at it *)

    Lemma own {c rq f c' t o d rq2 f2 t2 o2} : In (JCall c rq f c' t o) l -> In (JCall d rq2 f2 c' t2 o2) l -> c = d.
    Proof. intros A B. eapply call_owner; eauto. Qed.
    Lemma same {c rq f c' t o rq2 f2 c2 t2 o2} : In (JCall c rq f c' t o) l -> In (JCall c rq2 f2 c2 t2 o2) l ->
      rq = rq2 /\ f = f2 /\ c' = c2 /\ t = t2 /\ o = o2.
    Proof. intros A B. eapply call_same; eauto. Qed.
    Lemma cok {c rq f c' t o} : In (JCall c rq f c' t o) l -> before l (JReq c rq f) (JCall c rq f c' t o) /\ call_of f rq = Some o.
    Proof. intros A. now apply call_ok. Qed.
    Lemma rok {c r} : In (JResp c r) l ->
      (exists rq f c' t o r0, before l (JCall c rq f c' t o) (JResp c r) /\ before l (JBack c' r0) (JResp c r) /\ r = respond f rq r0) \/
      (exists rq f, before l (JReq c rq f) (JResp c r) /\ call_of f rq = None /\ r = respond f rq Panic).
    Proof. intros A. now apply resp_ok. Qed.

    Definition called (c : nat) : Prop := exists rq f c' t o, In (JCall c rq f c' t o) l.
    Definition calledb (c : nat) : bool := existsb (fun x => match x with JCall d _ _ _ _ _ => Nat.eqb d c | _ => false end) l.
    Lemma calledb_spec c : calledb c = true <-> called c.
    Proof.
      unfold calledb, called. rewrite existsb_exists. split.
      - intros (x & Hx & E). destruct x; try discriminate. apply Nat.eqb_eq in E. subst. eauto 10.
      - intros (rq & f & c' & t & o & A). eexists. split; [exact A|apply Nat.eqb_refl].
    Qed.

    Notation rcall := (gcall request (srv response) (renv * uuid)).
    Definition lift (k : call renv) : list rcall :=
      match find (fun x => match x with JCall _ _ _ c' _ _ => Nat.eqb c' (c_id k) | _ => false end) l with
      | Some (JCall c rq f _ _ _) => [Call c (c_env k, f) rq (respond f rq (c_res k))]
      | _ => []
      end.
    Lemma lift_is {k} : In k lc -> exists c rq f t, In (JCall c rq f (c_id k) t (c_op k)) l /\
      lift k = [Call c (c_env k, f) rq (respond f rq (c_res k))].
    Proof.
      intros Hk. destruct (ex_sound X k Hk) as [(t & A) _]. apply in_flat_map in A as (x & Hx & A).
      destruct x as [| c rq f c' t' o'| |]; cbn [lib_event] in A; try (now destruct A); destruct A as [A|[]]; inversion A; subst.
      exists c, rq, f, t. split; [exact Hx|]. unfold lift.
      destruct (find _ l) as [y|] eqn:Fi.
      - apply find_some in Fi as [Hy Ey]. destruct y as [|d rq2 f2 c2 t2 o2| |]; try discriminate. apply Nat.eqb_eq in Ey. subst c2.
        assert (c = d) as <- by exact (own Hx Hy). destruct (same Hx Hy) as (-> & -> & _). reflexivity.
      - exfalso. pose proof (find_none _ _ Fi _ Hx) as N. cbn in N. rewrite Nat.eqb_refl in N. discriminate.
    Qed.
    Definition lifted : list rcall := flat_map lift lc.
    Lemma lifted_in z : In z lifted <-> exists k c rq f t, In k lc /\ In (JCall c rq f (c_id k) t (c_op k)) l /\ z = Call c (c_env k, f) rq (respond f rq (c_res k)).
    Proof.
      unfold lifted. rewrite in_flat_map. split.
      - intros (k & Hk & Hz). destruct (lift_is Hk) as (c & rq & f & t & A & E). rewrite E in Hz. destruct Hz as [<-|[]]. exists k, c, rq, f, t. auto.
      - intros (k & c & rq & f & t & Hk & A & ->). exists k. split; [exact Hk|]. destruct (lift_is Hk) as (c1 & rq1 & f1 & t1 & A1 & E). rewrite E. left.
        assert (c1 = c) as -> by exact (own A1 A). destruct (same A1 A) as (-> & -> & _). reflexivity.
    Qed.

    Lemma lifted_once : NoDup (map (@c_id _ _ _) lifted).
    Proof.
      pose proof (ex_once X) as ND. unfold lifted. pose proof @lift_is as LI. revert ND LI.
      generalize lc. intros ks. induction ks as [|k ks IH]; intros ND LI; cbn [flat_map map]; [constructor|].
      inversion ND as [|? ? N1 ND']; subst. rewrite map_app.
      destruct (LI k (or_introl eq_refl)) as (c & rq & f & t & A & ->). cbn [map app c_id]. constructor.
      - intros B. apply in_map_iff in B as (z & Ez & Hz). apply in_flat_map in Hz as (k2 & Hk2 & Hz).
        destruct (LI k2 (or_intror Hk2)) as (c2 & rq2 & f2 & t2 & A2 & E2). rewrite E2 in Hz. destruct Hz as [<-|[]]. cbn [c_id] in Ez. subst c2.
        destruct (same A A2) as (_ & _ & Ec & _). apply N1. rewrite Ec. now apply in_map.
      - apply IH; [exact ND'|]. intros k2 Hk2. apply LI. now right.
    Qed.

    Lemma lifted_legal : sequential srv_step s lifted s'.
    Proof.
      pose proof (ex_legal X) as Q. unfold lifted. pose proof @lift_is as LI. revert Q LI. generalize s. generalize lc.
      intros ks. induction ks as [|k ks IH]; intros a Q LI; cbn [flat_map sequential] in *; [exact Q|].
      destruct Q as (s1 & E & Q). destruct (LI k (or_introl eq_refl)) as (c & rq & f & t & A & ->). cbn [app sequential c_env c_op c_res].
      exists s1. split; [|apply IH; [exact Q|intros k2 Hk2; apply LI; now right]].
      destruct (cok A) as [_ Ho]. rewrite (@srv_call a (c_env k) f rq _ Ho), E. reflexivity.
    Qed.

    Lemma seen_short x : (length (client_event x) <= 1)%nat.
    Proof. destruct x; cbn; lia. Qed.
    Lemma made_short x : (length (lib_event x) <= 1)%nat.
    Proof. destruct x; cbn; lia. Qed.
    Lemma in_req c t rq : In (Inv c t rq) (seen l) -> exists f, In (JReq c rq f) l.
    Proof.
      intros A. apply in_flat_map in A as (x & Hx & A). destruct x; cbn [client_event] in A; try (now destruct A); destruct A as [A|[]]; inversion A; subst. eauto.
    Qed.
    Lemma in_resp c r : In (Ret c r) (seen l) -> In (JResp c r) l.
    Proof.
      intros A. apply in_flat_map in A as (x & Hx & A). destruct x; cbn [client_event] in A; try (now destruct A); destruct A as [A|[]]; inversion A; subst. exact Hx.
    Qed.
    Lemma req_in c rq f : In (JReq c rq f) l -> In (Inv c c rq) (seen l).
    Proof. intros A. apply in_flat_map. exists (JReq c rq f). split; [exact A|now left]. Qed.
    Lemma before_reqs r c d t rq : before (seen l) (Ret c r) (Inv d t rq) -> exists f, before l (JResp c r) (JReq d rq f).
    Proof.
      intros B. apply (flat_map_before _ _ seen_short) in B as (x & y & B & Hx & Hy).
      destruct x; cbn [client_event] in Hx; try (now destruct Hx); destruct Hx as [Hx|[]]; inversion Hx; subst.
      destruct y; cbn [client_event] in Hy; try (now destruct Hy); destruct Hy as [Hy|[]]; inversion Hy; subst. eauto.
    Qed.

    Lemma lifted_explains : explains_some srv_step (seen l) s s' called lifted.
    Proof.
      split.
      - apply lifted_once.
      - intros c t rq r (rq1 & f1 & c1 & t1 & o1 & A1) A B. apply in_req in A as (f & A). apply in_resp in B.
        destruct (cok A1) as [B1 Ho1]. apply before_in in B1 as [B1 _]. destruct (req_same W A B1) as [-> ->].
        destruct (rok B) as [(rq2 & f2 & c2 & t2 & o2 & r0 & P1 & P2 & ->)|(rq2 & f2 & P1 & P2 & _)].
        + apply before_in in P1 as [P1 _]. apply before_in in P2 as [P2 _]. destruct (same A1 P1) as (-> & -> & -> & -> & ->).
          destruct (ex_complete X c2 t2 o2 r0) as (e & He).
          { apply in_flat_map. eexists. split; [exact P1|now left]. }
          { apply in_flat_map. eexists. split; [exact P2|now left]. }
          exists (e, f2). apply lifted_in. exists (Call c2 e o2 r0), c, rq2, f2, t2. auto.
        + apply before_in in P1 as [P1 _]. destruct (req_same W B1 P1) as [-> ->]. congruence.
      - intros z Hz. apply lifted_in in Hz as (k & c & rq & f & t & Hk & A & ->). cbn [c_id c_op c_res].
        destruct (cok A) as [B1 Ho]. apply before_in in B1 as [B1 _]. conj.
        + unfold called. eauto 10.
        + exists c. eapply req_in; exact B1.
        + intros r B. apply in_resp in B. destruct (rok B) as [(rq2 & f2 & c2 & t2 & o2 & r0 & P1 & P2 & ->)|(rq2 & f2 & P1 & P2 & _)].
          * apply before_in in P1 as [P1 _]. apply before_in in P2 as [P2 _]. destruct (same A P1) as (-> & -> & E & _).
            f_equal. apply (proj2 (ex_sound X k Hk)). rewrite E. apply in_flat_map. eexists. split; [exact P2|now left].
          * apply before_in in P1 as [P1 _]. destruct (req_same W B1 P1) as [-> ->]. congruence.
      - apply lifted_legal.
      - intros z z' (r & t0 & rq0 & B) Hz Hz'.
        apply lifted_in in Hz as (k & c & rq & f & t & Hk & A & ->). apply lifted_in in Hz' as (k' & d & rq' & f' & t' & Hk' & A' & ->). cbn [c_id] in B.
        apply before_reqs in B as (f0 & B). pose proof (before_in B) as [Br Bq].
        destruct (cok A') as [B2 _]. pose proof (before_in B2) as [Bq' _]. destruct (req_same W Bq Bq') as [-> ->].
        destruct (rok Br) as [(rq2 & f2 & c2 & t2 & o2 & r0 & P1 & P2 & ->)|(rq2 & f2 & P1 & P2 & _)].
        + pose proof (before_in P1) as [P1' _]. destruct (same A P1') as (-> & -> & E & _ & _).
          assert (before l (JBack c2 r0) (JCall d rq' f' (c_id k') t' (c_op k'))) as B3.
          { eapply before_trans; [|exact P2|]; [intros i j; apply (resp_once W)|].
            eapply before_trans; [|exact B|exact B2]. intros i j; apply (req_once W). }
          assert (before lc k k') as B4.
          { apply (ex_order X) with (r := r0) (t := t'); auto. rewrite E. unfold made. eapply before_flat_map; [exact B3|now left|now left]. }
          unfold lifted. eapply before_flat_map; [exact B4|..].
          * destruct (lift_is Hk) as (c1 & rq1 & f1 & t1 & A1 & E1). rewrite E1. left. rewrite E in A.
            assert (c1 = c) as -> by (rewrite E in A1; exact (own A1 A)).
            destruct (same A1 A) as (-> & -> & _). reflexivity.
          * destruct (lift_is Hk') as (c1 & rq1 & f1 & t1 & A1 & E1). rewrite E1. left.
            assert (c1 = d) as -> by exact (own A1 A').
            destruct (same A1 A') as (-> & -> & _). reflexivity.
        + pose proof (before_in P1) as [P1' _]. destruct (cok A) as [B5 Ho]. pose proof (before_in B5) as [B6 _].
          destruct (req_same W P1' B6) as [-> ->]. congruence.
    Qed.

    (** Every answered request, and the database, are explained by handling the
        requests one after the other. *)
    Lemma clients_explained : linearizable srv_step s (seen l) s'.
    Proof.
      assert (forall i j c t o t' o', inv_at (seen l) i c t o -> inv_at (seen l) j c t' o' -> i = j) as Once.
      { enough (forall i j c t o t' o', inv_at (seen l) i c t o -> inv_at (seen l) j c t' o' -> ~ (i < j)%nat) as K.
        { intros i j c t o t' o' A B. destruct (Nat.lt_trichotomy i j) as [L|[L|L]]; [|exact L|]; exfalso; [exact (K _ _ _ _ _ _ _ A B L)|exact (K _ _ _ _ _ _ _ B A L)]. }
        intros i j c t o t' o' A B L. assert (before (seen l) (Inv c t o) (Inv c t' o')) as Bf by (apply nth_before; eauto).
        apply (flat_map_before _ _ seen_short) in Bf as (x & y & Bf & Hx & Hy).
        destruct x; cbn [client_event] in Hx; try (now destruct Hx); destruct Hx as [Hx|[]]; inversion Hx; subst.
        destruct y; cbn [client_event] in Hy; try (now destruct Hy); destruct Hy as [Hy|[]]; inversion Hy; subst.
        apply nth_before in Bf as (i2 & j2 & L2 & Hi2 & Hj2). pose proof (req_once W _ _ Hi2 Hj2). lia. }
      assert (forall c r, In (Ret c r) (seen l) -> exists rq f, before l (JReq c rq f) (JResp c r) /\ In (JReq c rq f) l) as First.
      { intros c r B. apply in_resp in B. destruct (rok B) as [(rq2 & f2 & c2 & t2 & o2 & r0 & P1 & P2 & ->)|(rq2 & f2 & P1 & P2 & _)].
        - pose proof (before_in P1) as [P1' _]. destruct (cok P1') as [B5 Ho]. pose proof (before_in B5) as [B6 _].
          exists rq2, f2. split; [|exact B6]. eapply before_trans; [|exact B5|exact P1].
          intros i j Hi Hj. enough (~ (i < j)%nat /\ ~ (j < i)%nat) by lia.
          assert (forall i j, nth_error l i = Some (JCall c rq2 f2 c2 t2 o2) -> nth_error l j = Some (JCall c rq2 f2 c2 t2 o2) -> ~ (i < j)%nat) as K.
          { clear - W. intros i j Hi Hj L. assert (before l (JCall c rq2 f2 c2 t2 o2) (JCall c rq2 f2 c2 t2 o2)) as B by (apply nth_before; eauto).
            clear i j Hi Hj L. induction W; [destruct B as (a & b & e & E); destruct a; discriminate|..]; apply before_snoc_inv in B as [B|[B1 B2]]; try discriminate; auto.
            inversion B1; subst. eapply H2; eauto. }
          split; eapply K; eauto.
        - pose proof (before_in P1) as [P1' _]. eauto. }
      assert (forall j c r, ret_at (seen l) j c r -> exists i t o, (i < j)%nat /\ inv_at (seen l) i c t o) as First2.
      { intros j c r A. destruct (First c r) as (rq & f & B & _); [eapply nth_error_In; exact A|].
        assert (before (seen l) (Inv c c rq) (Ret c r)) as B2 by (eapply before_flat_map; [exact B|now left|now left]).
        apply nth_before in B2 as (i2 & j2 & L2 & Hi2 & Hj2). exists i2, c, rq. split; [|exact Hi2].
        enough (j2 = j) by lia. enough (~ (j < j2)%nat /\ ~ (j2 < j)%nat) by lia.
        assert (forall a b, nth_error (seen l) a = Some (Ret c r) -> nth_error (seen l) b = Some (Ret c r) -> ~ (a < b)%nat) as K.
        { clear - W. intros a b Ha Hb L. assert (before (seen l) (Ret c r) (Ret c r)) as B by (apply nth_before; eauto).
          apply (flat_map_before _ _ seen_short) in B as (x & y & B & Hx & Hy).
          destruct x; cbn [client_event] in Hx; try (now destruct Hx); destruct Hx as [Hx|[]]; inversion Hx; subst.
          destruct y; cbn [client_event] in Hy; try (now destruct Hy); destruct Hy as [Hy|[]]; inversion Hy; subst.
          apply nth_before in B as (i & j & Li & Hi & Hj). pose proof (resp_once W _ _ Hi Hj). lia. }
        split; eapply K; eauto. }
      set (cs := nodup Nat.eq_dec (filter (fun c => negb (calledb c)) (flat_map (fun x => match x with JResp c _ => [c] | _ => [] end) l))).
      assert (forall c, In c cs <-> ~ called c /\ exists r, In (JResp c r) l) as HC.
      { intros c. unfold cs. rewrite nodup_In, filter_In, negb_true_iff, <- not_true_iff_false, calledb_spec, in_flat_map. split.
        - intros [(x & Hx & Hc) N]. split; [exact N|]. destruct x; try (now destruct Hc). destruct Hc as [<-|[]]. eauto.
        - intros [N (r & Hr)]. split; [|exact N]. exists (JResp c r). split; [exact Hr|now left]. }
      destruct (@insert_all request (srv response) rstate (renv * uuid) srv_step (seen l) s s' Once First2 cs called lifted lifted_explains) as (l' & [Y1 Y2 Y3 Y4 Y5]).
      { apply NoDup_nodup. }
      { intros c Hc. apply HC in Hc as [N (r & Hr)]. split; [exact N|].
        destruct (rok Hr) as [(rq2 & f2 & c2 & t2 & o2 & r0 & P1 & _)|(rq2 & f2 & P1 & P2 & ->)].
        - exfalso. apply N. apply before_in in P1 as [P1 _]. unfold called. eauto 10.
        - pose proof (before_in P1) as [P1' _].
          exists c, rq2, (respond f2 rq2 Panic), (e0, f2). conj.
          + eapply req_in; exact P1'.
          + intros r' B. apply in_resp in B. apply In_nth_error in B as (i & B). apply In_nth_error in Hr as (j & Hr).
            pose proof (resp_once W _ _ B Hr). subst. rewrite B in Hr. now inversion Hr.
          + intros st. now apply srv_refuse. }
      exists l'. split; auto.
      - intros c t o r A B. apply (Y2 c t o r); auto. destruct (calledb c) eqn:Cb; [left; now apply calledb_spec|right].
        apply HC. split; [|exists r; now apply in_resp]. intros N. apply calledb_spec in N. congruence.
      - intros k Hk. exact (proj2 (Y3 k Hk)).
      - intros k k' r t Hk Hk' B. apply Y5; auto. unfold rt. eauto.
    Qed.
  End Lift.

  (** A request that was answered before another arrived: its library call
      returned before the other's was made. *)
  Lemma nested l : wf_log l -> forall c rq f c' t o d rq2 f2 d' t2 o2 r,
    In (JCall c rq f c' t o) l -> In (JCall d rq2 f2 d' t2 o2) l -> before l (JResp c r) (JReq d rq2 f2) ->
    exists r0, before (made l) (Ret c' r0) (Inv d' t2 o2).
  Proof.
    intros W c rq f c' t o d rq2 f2 d' t2 o2 r A B Bf. pose proof (before_in Bf) as [Br _].
    destruct (call_ok W _ _ _ _ _ _ B) as [B2 _]. destruct (call_ok W _ _ _ _ _ _ A) as [A2 Ho]. pose proof (before_in A2) as [A3 _].
    destruct (resp_ok W _ _ Br) as [(rq3 & f3 & c3 & t3 & o3 & r0 & P1 & P2 & ->)|(rq3 & f3 & P1 & P2 & _)].
    - pose proof (before_in P1) as [P1' _]. destruct (call_same W _ _ _ _ _ _ _ _ _ _ _ A P1') as (-> & -> & -> & _).
      exists r0. unfold made. apply (@before_flat_map _ _ lib_event l (JBack c3 r0) (JCall d rq2 f2 d' t2 o2)); [|now left|now left].
      eapply before_trans; [|exact P2|]; [intros i j; apply (resp_once W)|].
      eapply before_trans; [|exact Bf|exact B2]. intros i j; apply (req_once W).
    - pose proof (before_in P1) as [P1' _]. destruct (req_same W P1' A3) as [-> ->]. congruence.
  Qed.

  (** ** Every request can be answered *)
  Definition anyenv (e : renv) : Prop := True.
  Lemma anyenv_envs k : RdbProg.envs anyenv k.
  Proof. intros t c e g p _. exact I. Qed.

  Lemma sreach_any E s k : sreach E s k -> sreach anyenv s k.
  Proof. induction 1; [constructor|]. econstructor; eauto using anyenv_envs. Qed.

  (** Steps in which no request arrives. *)
  Inductive working : sconf -> sconf -> Prop :=
  | Work0 k : working k k
  | WorkS k k1 k' : sstep k k1 -> (forall c rq f, In (JReq c rq f) (s_log k1) -> In (JReq c rq f) (s_log k)) -> working k1 k' -> working k k'.
  Lemma working_trans k1 k2 k3 : working k1 k2 -> working k2 k3 -> working k1 k3.
  Proof. induction 1; auto. intros. econstructor; eauto. Qed.
  Lemma working_one k k1 : sstep k k1 -> (forall c rq f, In (JReq c rq f) (s_log k1) -> In (JReq c rq f) (s_log k)) -> working k k1.
  Proof. intros A B. econstructor; eauto. constructor. Qed.
  Lemma working_reach s k k' : working k k' -> sreach anyenv s k -> sreach anyenv s k'.
  Proof. induction 1; auto. intros R. apply IHworking. econstructor; eauto using anyenv_envs. Qed.
  Lemma sstep_log k k' : sstep k k' -> exists x, s_log k' = s_log k ++ x.
  Proof. intros St. destruct St; cbn [s_log]; eauto. exists []. now rewrite app_nil_r. Qed.
  Lemma working_log k k' : working k k' -> (exists x, s_log k' = s_log k ++ x) /\ (forall c rq f, In (JReq c rq f) (s_log k') -> In (JReq c rq f) (s_log k)).
  Proof.
    induction 1 as [k|k k1 k' St N W [(x & Ex) M]]; [split; [exists []; now rewrite app_nil_r|auto]|].
    apply sstep_log in St as (y & Ey). split; [exists (y ++ x); now rewrite Ex, Ey, app_assoc|eauto].
  Qed.
  Lemma no_req (l : list jevent) x : (forall c rq f, x <> JReq c rq f) -> forall c rq f, In (JReq c rq f) (l ++ [x]) -> In (JReq c rq f) l.
  Proof. intros N c rq f A. apply in_app_or in A as [A|[A|[]]]; [exact A|]. now apply N in A. Qed.

  Lemma finish_calls lib lib' : RdbLive.finishing H enc dec lib lib' -> forall l, exists l', working (SConf lib l) (SConf lib' l').
  Proof.
    induction 1 as [k|k k1 k' St Nx F IH]; intros l; [exists l; constructor|].
    pose proof (rstep_cases St) as [(t & e & o & p & _ & _ & _ & N)|[(t & c & e & g & g' & p & p' & _ & _ & Hh & _)|(t & c & e & g & r & _ & _ & Hh & _)]]; [lia|..].
    - destruct (IH l) as (l' & W). exists l'. eapply WorkS; [exact (@SWork (SConf k l) k1 St Hh)|auto|exact W].
    - destruct (IH (l ++ [JBack c r])) as (l' & W). exists l'. eapply WorkS; [exact (@SBack (SConf k l) k1 c r St Hh)|now apply no_req|exact W].
  Qed.
  Lemma all_back s k : sreach anyenv s k -> exists k', working k k' /\ (forall t, threads (s_lib k') t = RdbProg.RIdle) /\
    forall c rq f c' t o, In (JCall c rq f c' t o) (s_log k') -> exists r, In (JBack c' r) (s_log k').
  Proof.
    intros R. destruct k as [lib l]. destruct (sreach_inv R) as (R1 & R2 & R3). cbn [s_lib s_log] in *.
    destruct (RdbLive.can_finish R1) as (lib' & F & Id). destruct (finish_calls F l) as (l' & W). exists (SConf lib' l'). conj; auto.
    cbn [s_lib s_log]. intros c rq f c' t o A. destruct (sreach_inv (working_reach W R)) as (Q1 & Q2 & Q3). cbn [s_lib s_log] in *.
    destruct (i_done (linv_reach Q1) c' t o) as [(r & B)|(e & g & p & B)].
    - rewrite Q2. apply in_flat_map. eexists. split; [exact A|now left].
    - exists r. rewrite Q2 in B. apply in_flat_map in B as (x & Hx & B). destruct x; cbn [lib_event] in B; try (now destruct B); destruct B as [B|[]]; inversion B; subst. exact Hx.
    - cbn [s_lib] in Id. rewrite Id in B. discriminate.
  Qed.

  Lemma answer_one (e0 : renv) s k c rq f : sreach anyenv s k -> In (JReq c rq f) (s_log k) ->
    exists k' r, working k k' /\ In (JResp c r) (s_log k').
  Proof.
    intros R A.
    assert (forall k, (exists r, In (JResp c r) (s_log k)) \/ forall r, ~ In (JResp c r) (s_log k)) as Dec.
    { clear. intros k. induction (s_log k) as [|x l [(r & Hr)|N]]; [right; intros r []|left; exists r; now right|].
      destruct x as [| | |d r]; try (right; intros r0 [X|X]; [discriminate|now apply N in X]).
      destruct (Nat.eq_dec d c) as [->|Ne]; [left; exists r; now left|right; intros r0 [X|X]; [congruence|now apply N in X]]. }
    assert (forall k1, working k k1 -> (forall c rq f c' t o, In (JCall c rq f c' t o) (s_log k1) -> exists r, In (JBack c' r) (s_log k1)) ->
      called (s_log k1) c -> exists k' r, working k k' /\ In (JResp c r) (s_log k')) as Done.
    { intros k1 W B (rq1 & f1 & c' & t & o & C). destruct (B _ _ _ _ _ _ C) as (r & Hr). destruct (Dec k1) as [(r1 & D)|D]; [eauto|].
      eexists _, _. split; [eapply working_trans; [exact W|eapply working_one; [exact (@SResp k1 c rq1 f1 c' t o r C Hr D)|now apply no_req]]|].
      cbn [s_log]. apply in_or_app. right. now left. }
    destruct (Dec k) as [(r & D)|D]; [exists k, r; split; [constructor|exact D]|].
    destruct (call_of f rq) as [o|] eqn:Co.
    - destruct (all_back R) as (k1 & W1 & Id & B1). destruct (calledb (s_log k1) c) eqn:Cb.
      + apply calledb_spec in Cb. eapply Done; eauto.
      + assert (~ called (s_log k1) c) as Nc by (intros X; apply calledb_spec in X; congruence).
        destruct (working_log W1) as [(x & Ex) _].
        set (lib := RdbProg.RConfig (RdbProg.rc_db (s_lib k1)) (RdbProg.rc_ix (s_lib k1))
           (upd (threads (s_lib k1)) 0 (RdbProg.Running (next (s_lib k1)) e0 RdbProg.GNone (RdbProg.prog_of H enc dec e0 o)))
           (hist (s_lib k1) ++ [Inv (next (s_lib k1)) 0 o]) (S (next (s_lib k1)))).
        assert (rstep (s_lib k1) lib) as St by (apply RdbProg.RInvoke; apply Id).
        assert (sstep k1 (SConf lib (s_log k1 ++ [JCall c rq f (next (s_lib k1)) 0 o]))) as St2.
        { apply SCall; auto.
          - rewrite Ex. apply in_or_app. now left.
          - intros rq' f' c' t' o' X. apply Nc. unfold called. eauto 10. }
        assert (working k (SConf lib (s_log k1 ++ [JCall c rq f (next (s_lib k1)) 0 o]))) as W2.
        { eapply working_trans; [exact W1|]. apply working_one; [exact St2|]. cbn [s_log]. now apply no_req. }
        destruct (all_back (working_reach W2 R)) as (k3 & W3 & _ & B3). eapply Done; [eapply working_trans; [exact W2|exact W3]|exact B3|].
        destruct (working_log W3) as [(y & Ey) _]. rewrite Ey. exists rq, f, (next (s_lib k1)), 0, o. cbn [s_log].
        apply in_or_app. left. apply in_or_app. right. now left.
    - eexists _, _. split; [eapply working_one; [exact (@SRefuse k c rq f A Co D)|now apply no_req]|].
      cbn [s_log]. apply in_or_app. right. now left.
  Qed.

  Lemma answer_all (e0 : renv) s k : sreach anyenv s k -> exists k', working k k' /\
    forall c rq f, In (JReq c rq f) (s_log k') -> exists r, In (JResp c r) (s_log k').
  Proof.
    intros R.
    assert (forall rest, (forall x, In x rest -> In x (s_log k)) -> exists k', working k k' /\
      forall c rq f, In (JReq c rq f) rest -> exists r, In (JResp c r) (s_log k')) as G.
    { induction rest as [|x rest IH]; intros Sub; [exists k; split; [constructor|intros c rq f []]|].
      destruct IH as (k1 & W1 & B1); [intros; apply Sub; now right|].
      destruct x as [c rq f| | |]; try (exists k1; split; [exact W1|]; intros c1 rq1 f1 [X|X]; [discriminate|eauto]).
      destruct (working_log W1) as [(y & Ey) _].
      destruct (@answer_one e0 s k1 c rq f (working_reach W1 R)) as (k2 & r & W2 & A2).
      { rewrite Ey. apply in_or_app. left. apply Sub. now left. }
      exists k2. split; [eapply working_trans; eauto|]. intros c1 rq1 f1 [X|X]; [inversion X; subst; eauto|].
      destruct (B1 _ _ _ X) as (r1 & Hr1). destruct (working_log W2) as [(z & Ez) _]. exists r1. rewrite Ez. apply in_or_app. now left. }
    destruct (G (s_log k) (fun x Hx => Hx)) as (k' & W & B). exists k'. split; [exact W|]. intros c rq f A. apply (B c rq f). now apply (proj2 (working_log W)).
  Qed.

  (** ** Every execution of the library is one of a server

      whose requests [rq c] make the calls. *)
  Section Embed.
    Variable rq : nat -> request.
    Variable fr : nat -> uuid.
    Definition emb (x : event) : list jevent :=
      match x with
      | Inv c t o => [JReq c (rq c) (fr c); JCall c (rq c) (fr c) c t o]
      | Ret c r => [JBack c r; JResp c (respond (fr c) (rq c) r)]
      end.
    Definition shown (x : event) : gevent request (srv response) :=
      match x with Inv c _ _ => Inv c c (rq c) | Ret c r => Ret c (respond (fr c) (rq c) r) end.
    Lemma shown_emb h : seen (flat_map emb h) = map shown h.
    Proof. induction h as [|[c t o|c r] h IH]; cbn; [reflexivity|f_equal; exact IH..]. Qed.

    Lemma embed E s k : rreach E s k -> (forall c t o, In (Inv c t o) (hist k) -> call_of (fr c) (rq c) = Some o) ->
      sreach E s (SConf k (flat_map emb (hist k))).
    Proof.
      induction 1 as [|k k' R IH St En]; intros A; [constructor|].
      pose proof (linv_reach R) as L.
      pose proof (rstep_cases St) as [(t & e & o & p & Th & Th' & Hh & Nx)|[(t & c & e & g & g' & p & p' & _ & _ & Hh & _)|(t & c & e & g & r & Th & Th' & Hh & Nx)]].
      - rewrite Hh, flat_map_app. cbn [flat_map emb]. rewrite app_nil_r.
        assert (forall c rq' f', In (JReq c rq' f') (flat_map emb (hist k)) -> (c < next k)%nat) as Q1.
        { intros c rq' f' B. apply in_flat_map in B as ([c1 t1 o1|c1 r1] & Hx & [B|[B|[]]]); inversion B; subst. exact (i_inv L _ _ _ Hx). }
        assert (forall c rq' f' c' t' o', In (JCall c rq' f' c' t' o') (flat_map emb (hist k)) -> (c < next k)%nat) as Q2.
        { intros c rq' f' c' t' o' B. apply in_flat_map in B as ([c1 t1 o1|c1 r1] & Hx & [B|[B|[]]]); inversion B; subst. exact (i_inv L _ _ _ Hx). }
        assert (sreach E s (SConf k (flat_map emb (hist k) ++ [JReq (next k) (rq (next k)) (fr (next k))]))) as S1.
        { eapply SReachS; [apply IH; intros c t1 o1 B; apply (A c t1); rewrite Hh; apply in_or_app; now left|..].
          - apply SReq. cbn [s_log]. intros rq' f' B. apply Q1 in B. lia.
          - cbn [s_lib]. clear - R. inversion R; subst; [|assumption]. intros t c e g p B. discriminate. }
        eapply SReachS; [exact S1| |exact En].
        replace (flat_map emb (hist k) ++ [JReq (next k) (rq (next k)) (fr (next k)); JCall (next k) (rq (next k)) (fr (next k)) (next k) t o])
          with ((flat_map emb (hist k) ++ [JReq (next k) (rq (next k)) (fr (next k))]) ++ [JCall (next k) (rq (next k)) (fr (next k)) (next k) t o]) by now rewrite <- app_assoc.
        refine (@SCall (SConf k (flat_map emb (hist k) ++ [JReq (next k) (rq (next k)) (fr (next k))])) k' (next k) (rq (next k)) (fr (next k)) t o _ _ _ St Hh).
        + cbn [s_log]. apply in_or_app. right. now left.
        + apply (A _ t). rewrite Hh. apply in_or_app. right. now left.
        + cbn [s_log]. intros rq' f' c' t' o' B. apply in_app_or in B as [B|[B|[]]]; [apply Q2 in B; lia|discriminate].
      - rewrite Hh. eapply SReachS; [apply IH; now rewrite <- Hh| |exact En]. exact (@SWork (SConf k (flat_map emb (hist k))) k' St Hh).
      - rewrite Hh, flat_map_app. cbn [flat_map emb]. rewrite app_nil_r.
        destruct (i_run L _ Th) as [(o & Io) Nr].
        eapply SReachS.
        + eapply SReachS; [apply IH; intros c1 t1 o1 B; apply (A c1 t1); rewrite Hh; apply in_or_app; now left| |].
          * exact (@SBack (SConf k (flat_map emb (hist k))) k' c r St Hh).
          * exact En.
        + replace (flat_map emb (hist k) ++ [JBack c r; JResp c (respond (fr c) (rq c) r)])
            with ((flat_map emb (hist k) ++ [JBack c r]) ++ [JResp c (respond (fr c) (rq c) r)]) by now rewrite <- app_assoc.
          refine (@SResp (SConf k' (flat_map emb (hist k) ++ [JBack c r])) c (rq c) (fr c) c t o r _ _ _); cbn [s_log].
          * apply in_or_app. left. apply in_flat_map. exists (Inv c t o). split; [exact Io|right; now left].
          * apply in_or_app. right. now left.
          * intros r' B. apply in_app_or in B as [B|[B|[]]]; [|discriminate].
            apply in_flat_map in B as ([c1 t1 o1|c1 r1] & Hx & [B|[B|[]]]); inversion B; subst. exact (Nr _ Hx).
        + exact En.
    Qed.
  End Embed.
End Server.
