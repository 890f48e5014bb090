(** * C61, continued: clients of a RocksDB server that is killed and started again

    PropsOutageRdb.v is about library calls; here requests arrive at a server
    (ServerConc.v), every one is handled by its own task, and the server can be
    killed, or its machine can lose power, at any moment. *)
From Verif Require Import Base OMap Json Types Util Db Mem Rdb Spec QueryFacts MemFacts MemHist Claims PropsMem Examples
  KeyFacts MsgPack RdbGraph RdbRep RdbPut RdbRefine RdbHist PropsRdb PropsRdbIndex Proto ProtoFacts Server PropsProto Conc PropsConc PluginProg PropsServer
  RdbSched RdbSerial Foot RdbApart ServerConc PropsServerConc PropsOutageRdb.
From Verif Require RdbProg RdbLive.

Set Implicit Arguments.
Local Open Scope list_scope.
Local Notation bytes := (list byte).

Section Server.
  Variable H : bytes -> N.
  Variable alnum : N -> bool.
  Variable enc : json -> bytes.
  Variable dec : bytes -> option json.
  Variable E : renv -> Prop.
  Notation call_of := (request_op alnum dec).
  Notation sreach := (sreach H alnum enc dec E).
  Notation sstep := (sstep H alnum enc dec).
  Notation one_by_one := (srv_step H alnum enc dec).
  Notation requests_apart := (requests_apart alnum dec).
  Notation wf_log := (wf_log alnum enc dec).
  Notation respond := (respond alnum enc dec).

  (** The server goes on. *)
  Inductive serves : sconf -> sconf -> Prop :=
  | Serves0 k : serves k k
  | ServesS k k1 k2 : serves k k1 -> sstep k1 k2 -> RdbProg.envs E (s_lib k2) -> serves k k2.

  (** The life of a server: the logs of its sessions, and the database after the
      last start.  It dies at the moment [k]; RocksDB recovers what was stored at an
      earlier moment [k1], which is not before any [sync] was called that returned
      [Ok] (as in PropsOutageRdb.v); it is started again on what is there
      (server/src/main.rs 66-72, rdb/datastore.rs 374-425). *)
  Inductive served_life : list (list jevent) -> rstate -> Prop :=
  | SL0 : served_life [] rdb_empty
  | SL1 ls s k1 k s2 : served_life ls s -> sreach s k1 -> serves k1 k ->
      (forall c rq f c' t r, In (JCall c rq f c' t OSync) (s_log k) -> In (JBack c' (Ok r)) (s_log k) -> In (JCall c rq f c' t OSync) (s_log k1)) ->
      rdb_open (RdbProg.rc_db (s_lib k1)) = Ok s2 -> served_life (ls ++ [s_log k]) s2.

  (** ** Specification *)

  (** Request [c] asked for a sync and was told that it succeeded. *)
  Definition synced (l : list jevent) (c : nat) : Prop :=
    exists rq f r, In (JReq c rq f) l /\ call_of f rq = Some OSync /\ In (JResp c (SOk r)) l.

  (** Of each session [l] a beginning [l1] counts, in which nothing is missing that
      happened before the request for an acknowledged sync arrived.  Its responses
      and what is stored are those of its requests handled one at a time, in an
      order that agrees with real time; the next session starts with what is
      stored. *)
  Inductive as_requests : list (list jevent) -> rstate -> Prop :=
  | AR0 : as_requests [] rdb_empty
  | AR1 ls s l l1 l2 s' s2 : as_requests ls s -> l = l1 ++ l2 ->
      (forall c rq f x, synced l c -> before l x (JReq c rq f) -> In x l1) ->
      linearizable one_by_one s (seen l1) s' ->
      rdb_open (r_db s') = Ok s2 -> r_db s2 = r_db s' ->
      as_requests (ls ++ [l]) s2.

  (** Every value written can be read back. *)
  Definition good_requests (l : list jevent) : Prop := forall c rq f o, In (JReq c rq f) l -> call_of f rq = Some o -> good_op enc dec o.

  (** ** Proof *)
  Lemma lib_apart s k : sreach s k -> requests_apart (s_log k) -> apart_when_concurrent (RdbProg.rc_hist (s_lib k)).
  Proof.
    intros R A. destruct (sreach_inv R) as (R1 & R2 & W). rewrite R2. intros c t o c' t' o' I I' N.
    apply in_flat_map in I as (x & Hx & I). apply in_flat_map in I' as (y & Hy & I').
    destruct x as [|d rq f d' t1 o1| |]; cbn [lib_event] in I; try (now destruct I); destruct I as [I|[]]; inversion I; subst.
    destruct y as [|d2 rq2 f2 d2' t2 o2| |]; cbn [lib_event] in I'; try (now destruct I'); destruct I' as [I'|[]]; inversion I'; subst.
    destruct (call_ok W _ _ _ _ _ _ Hx) as [B1 O1]. pose proof (before_in B1) as [J1 _].
    destruct (call_ok W _ _ _ _ _ _ Hy) as [B2 O2]. pose proof (before_in B2) as [J2 _].
    assert (d <> d2) as Nd. { intros ->. destruct (call_same W _ _ _ _ _ _ _ _ _ _ _ Hx Hy) as (_ & _ & Ec & _). exact (N Ec). }
    destruct (A _ _ _ _ _ _ _ _ J1 J2 Nd O1 O2) as [(r & rq' & f' & B)|[(r & rq' & f' & B)|Ap]].
    - pose proof (before_in B) as [_ B3]. destruct (req_same W B3 J2) as [-> ->].
      destruct (nested W _ _ _ _ _ _ _ _ Hx Hy B) as (r0 & B4). left. eauto.
    - pose proof (before_in B) as [_ B3]. destruct (req_same W B3 J1) as [-> ->].
      destruct (nested W _ _ _ _ _ _ _ _ Hy Hx B) as (r0 & B4). right. left. eauto.
    - auto.
  Qed.
  Lemma sstep_log k k' : sstep k k' -> exists l, s_log k' = s_log k ++ l.
  Proof. intros St. destruct St; cbn [s_log]; try (eexists; reflexivity). exists []. now rewrite app_nil_r. Qed.
  Lemma sstep_lib k k' : sstep k k' -> s_lib k' = s_lib k \/ RdbProg.rstep H enc dec (s_lib k) (s_lib k').
  Proof. intros St. destruct St; cbn [s_lib]; auto. Qed.
  Lemma serves_reach s k1 k : sreach s k1 -> serves k1 k -> sreach s k /\ exists l, s_log k = s_log k1 ++ l.
  Proof.
    intros R G. induction G as [|k1 k2 k3 G IH St En]; [split; [exact R|exists []; now rewrite app_nil_r]|].
    destruct (IH R) as (R2 & l & El). split; [econstructor; eauto|]. destruct (sstep_log St) as (l' & El'). exists (l ++ l'). now rewrite El', El, app_assoc.
  Qed.
  Lemma serves_goes k1 k : serves k1 k -> goes H enc dec E (s_lib k1) (s_lib k).
  Proof.
    induction 1 as [|k1 k2 k3 G IH St En]; [constructor|]. destruct (sstep_lib St) as [-> |X]; [exact IH|]. econstructor; eauto.
  Qed.
  Lemma made_good s k : sreach s k -> good_requests (s_log k) -> good_session enc dec (RdbProg.rc_hist (s_lib k)).
  Proof.
    intros R G c t o I. destruct (sreach_inv R) as (R1 & R2 & W). rewrite R2 in I. apply in_flat_map in I as (x & Hx & I).
    destruct x as [|d rq f d' t1 o1| |]; cbn [lib_event] in I; try (now destruct I); destruct I as [I|[]]; inversion I; subst.
    destruct (call_ok W _ _ _ _ _ _ Hx) as [B O1]. pose proof (before_in B) as [J1 _]. eauto.
  Qed.
  Lemma made_length l : length (made l) <= length l.
  Proof. unfold made. induction l as [|x l IH]; [cbn; lia|]. cbn [flat_map]. rewrite app_length. destruct x; cbn; lia. Qed.
  Lemma library_life ls s : served_life ls s -> Forall requests_apart ls -> Forall good_requests ls ->
    rocks_life H enc dec E (map made ls) s /\ Forall apart_when_concurrent (map made ls) /\ Forall (good_session enc dec) (map made ls).
  Proof.
    induction 1 as [|ls s k1 k s2 L IH R G Sy Eo]; intros A Gd; [cbn; conj; constructor|].
    apply Forall_app in A as [A Ak]. apply Forall_inv in Ak. apply Forall_app in Gd as [Gd Gk]. apply Forall_inv in Gk.
    destruct (IH A Gd) as (I1 & I2 & I3). destruct (serves_reach R G) as (Rk & _).
    destruct (sreach_inv R) as (R1 & R2 & _). destruct (sreach_inv Rk) as (Rk1 & Rk2 & Wk).
    rewrite map_app. cbn [map]. rewrite <- Rk2. conj.
    - apply RL1 with (s := s) (k1 := s_lib k1); auto; [now apply serves_goes|]. rewrite Rk2, R2. intros c t I J.
      apply in_flat_map in I as (x & Hx & I). apply in_flat_map in J as (y & Hy & J).
      destruct x as [|d rq f d' t1 o1| |]; cbn [lib_event] in I; try (now destruct I); destruct I as [I|[]]; inversion I; subst.
      destruct y as [| |d2 r2|]; cbn [lib_event] in J; try (now destruct J); destruct J as [J|[]]; inversion J; subst.
      apply in_flat_map. exists (JCall d rq f c t OSync). split; [eauto|now left].
    - apply Forall_app. split; [exact I2|]. constructor; [|constructor]. eapply lib_apart; eauto.
    - apply Forall_app. split; [exact I3|]. constructor; [|constructor]. eapply made_good; eauto.
  Qed.
  Lemma size_made ls : size (map made ls) <= length (concat ls) + length ls.
  Proof.
    unfold size. rewrite map_length. induction ls as [|l ls IH]; [cbn; lia|]. cbn [map concat length] in *. rewrite !app_length. pose proof (made_length l). lia.
  Qed.
  Lemma open_db d s2 : rdb_open d = Ok s2 -> r_db s2 = d.
  Proof.
    unfold rdb_open. destruct (get meta_key (d_meta d)) as [vb|]; [|intros X; inversion X; reflexivity].
    destruct (unbin_idents vb) as [ix| |]; cbn [obind]; intros X; inversion X; reflexivity.
  Qed.
  Lemma req_prefix l1 l2 c rq f x : wf_log (l1 ++ l2) -> In (JReq c rq f) l1 -> before (l1 ++ l2) x (JReq c rq f) -> In x l1.
  Proof.
    intros W I B. apply In_nth_error in I as (j & J). pose proof (proj1 (nth_error_Some l1 j) ltac:(congruence)) as Lj.
    apply nth_before in B as (a & b & L & Ha & Hb).
    assert (nth_error (l1 ++ l2) j = Some (JReq c rq f)) as N2 by (rewrite nth_error_app1 by lia; exact J).
    pose proof (req_once W _ _ Hb N2). subst b. rewrite nth_error_app1 in Ha by lia. eapply nth_error_In; eauto.
  Qed.
  Lemma sync_answer f rq r a : call_of f rq = Some OSync -> respond f rq r = SOk a -> exists x, r = Ok x.
  Proof.
    unfold ServerConc.respond, request_op, serve. destruct rq; try discriminate; unfold converted, blocking; intros Eo;
      repeat match type of Eo with context [match ?x with _ => _ end] => destruct x; try discriminate end; inversion Eo; subst;
      destruct r as [x|x|]; cbn; intros X; try discriminate; eauto.
  Qed.

  Lemma session_requests s k1 evs : opened H enc dec evs s -> sreach s k1 -> apart_when_concurrent (RdbProg.rc_hist (s_lib k1)) -> forall e0 : renv,
    exists s', linearizable one_by_one s (seen (s_log k1)) s' /\ r_db s' = RdbProg.rc_db (s_lib k1).
  Proof.
    intros (K & _) R A e0. destruct (sreach_inv R) as (R1 & R2 & W). destruct (at_moment K R1 A) as (s' & (lc & X) & D).
    exists s'. split; [|exact D]. rewrite R2 in X. exact (clients_explained W X e0).
  Qed.
  Lemma bound ls : (N.of_nat (length (concat ls) + length ls) < 2 ^ 64)%N -> (N.of_nat (size (map made ls)) < 2 ^ 64)%N.
  Proof. intros L. pose proof (size_made ls). lia. Qed.

  (** Any number of clients, any number of kills at any moments: if requests that
      overlap make calls that do not interfere, all responses before the kills and
      the database after the last start are those of requests handled one at a
      time, and what was answered before an acknowledged sync is not lost. *)
  Theorem C61_rdb_requests_partial (e0 : renv) ls s : served_life ls s -> Forall requests_apart ls -> Forall good_requests ls ->
    (N.of_nat (length (concat ls) + length ls) < 2 ^ 64)%N -> as_requests ls s.
  Proof.
    induction 1 as [|ls s k1 k s2 L IH R G Sy Eo]; intros A Gd Bd; [constructor|].
    apply Forall_app in A as [A Ak]. apply Forall_inv in Ak. apply Forall_app in Gd as [Gd Gk]. apply Forall_inv in Gk.
    assert (N.of_nat (length (concat ls) + length ls) < 2 ^ 64)%N as Bd' by (rewrite concat_app, !app_length in Bd; lia).
    destruct (library_life L A Gd) as (L1 & L2 & L3). destruct (sequential_life L1 L2 L3 (bound _ Bd')) as (evs & _ & Op & _).
    destruct (serves_reach R G) as (Rk & l2 & El). destruct (sreach_inv Rk) as (Rk1 & Rk2 & Wk). destruct (sreach_inv R) as (R1 & R2 & W1).
    pose proof (lib_apart Rk Ak) as Ap. pose proof (ho_once (hist_reach Rk1)) as On.
    assert (RdbProg.rc_hist (s_lib k) = RdbProg.rc_hist (s_lib k1) ++ made l2) as Eh by (rewrite Rk2, R2, El; apply flat_map_app).
    rewrite Eh in Ap, On. destruct (session_requests Op R (@apart_prefix _ _ On Ap) e0) as (s' & Li & D).
    eapply AR1 with (s' := s'); [apply IH; auto|exact El| |exact Li|now rewrite D|rewrite D; now apply open_db].
    intros c rq f x (rq1 & f1 & r & Hq & Hc & Hr) B. pose proof (before_in B) as [_ Hq2]. destruct (req_same Wk Hq Hq2) as [-> ->].
    enough (In (JReq c rq f) (s_log k1)) as Iq by (rewrite El in Wk, B; exact (@req_prefix _ _ _ _ _ _ Wk Iq B)).
    destruct (resp_ok Wk _ _ Hr) as [(rq3 & f3 & c3 & t3 & o3 & r3 & B1 & B2 & Er)|(rq3 & f3 & B1 & Nc & _)].
    - pose proof (before_in B1) as [J1 _]. pose proof (before_in B2) as [J2 _]. destruct (call_ok Wk _ _ _ _ _ _ J1) as [B3 O3].
      pose proof (before_in B3) as [J3 _]. destruct (req_same Wk J3 Hq2) as [-> ->]. rewrite Hc in O3. inversion O3; subst o3.
      symmetry in Er. destruct (sync_answer _ _ _ Hc Er) as (y & ->). pose proof (Sy _ _ _ _ _ _ J1 J2) as J4.
      destruct (call_ok W1 _ _ _ _ _ _ J4) as [B4 _]. now apply before_in in B4.
    - pose proof (before_in B1) as [J1 _]. destruct (req_same Wk J1 Hq2) as [-> ->]. congruence.
  Qed.

  (** Whenever it is killed, the server can be started again. *)
  Theorem C61_rdb_starts_partial ls s k1 : served_life ls s -> sreach s k1 ->
    Forall requests_apart (ls ++ [s_log k1]) -> Forall good_requests (ls ++ [s_log k1]) ->
    (N.of_nat (length (concat (ls ++ [s_log k1])) + length (ls ++ [s_log k1])) < 2 ^ 64)%N ->
    exists s2, rdb_open (RdbProg.rc_db (s_lib k1)) = Ok s2.
  Proof.
    intros L R A G Bd. pose proof (bound _ Bd) as Bd1. destruct (sreach_inv R) as (R1 & R2 & _).
    rewrite map_app in Bd1. cbn [map] in Bd1. rewrite <- R2 in Bd1.
    apply Forall_app in A as [A Ak]. apply Forall_inv in Ak. apply Forall_app in G as [Gd Gk]. apply Forall_inv in Gk.
    destruct (library_life L A Gd) as (L1 & L2 & L3).
    eapply C61_rdb_opens_partial; [exact L1|exact R1| | |exact Bd1]; apply Forall_app; (split; [assumption|]); (constructor; [|constructor]).
    - eapply lib_apart; eauto.
    - eapply made_good; eauto.
  Qed.

  (** Every execution of the library goes on as one of a server. *)
  Section Embed.
    Variable rq : nat -> request.
    Variable fr : nat -> uuid.
    Notation emb := (emb alnum enc dec rq fr).
    Notation hist := RdbProg.rc_hist.
    Notation next := RdbProg.rc_next.
    Lemma embed_step s k k' : RdbProg.rreach H enc dec E s k -> RdbProg.rstep H enc dec k k' -> RdbProg.envs E k' ->
      (forall c t o, In (Inv c t o) (hist k') -> call_of (fr c) (rq c) = Some o) ->
      serves (SConf k (flat_map emb (hist k))) (SConf k' (flat_map emb (hist k'))).
    Proof.
      intros R St En A. pose proof (linv_reach R) as L.
      assert (RdbProg.envs E k) as Ek by (inversion R; subst; [intros ? ? ? ? ? B; discriminate B|assumption]).
      pose proof (rstep_cases St) as [(t & e & o & p & Th & Th' & Hh & Nx)|[(t & c & e & g & g' & p & p' & _ & _ & Hh & _)|(t & c & e & g & r & Th & Th' & Hh & Nx)]].
      - rewrite Hh, flat_map_app. cbn [flat_map ServerConc.emb]. rewrite app_nil_r.
        assert (forall c rq' f', In (JReq c rq' f') (flat_map emb (hist k)) -> (c < next k)%nat) as Q1.
        { intros c rq' f' B. apply in_flat_map in B as ([c1 t1 o1|c1 r1] & Hx & [B|[B|[]]]); inversion B; subst. exact (i_inv L _ _ _ Hx). }
        assert (forall c rq' f' c' t' o', In (JCall c rq' f' c' t' o') (flat_map emb (hist k)) -> (c < next k)%nat) as Q2.
        { intros c rq' f' c' t' o' B. apply in_flat_map in B as ([c1 t1 o1|c1 r1] & Hx & [B|[B|[]]]); inversion B; subst. exact (i_inv L _ _ _ Hx). }
        eapply ServesS; [eapply ServesS; [apply Serves0| |]| |exact En].
        + apply SReq with (c := next k) (rq := rq (next k)) (fresh := fr (next k)). cbn [s_log]. intros rq' f' B. apply Q1 in B. lia.
        + exact Ek.
        + cbn [s_lib s_log].
          replace (flat_map emb (hist k) ++ [JReq (next k) (rq (next k)) (fr (next k)); JCall (next k) (rq (next k)) (fr (next k)) (next k) t o])
            with ((flat_map emb (hist k) ++ [JReq (next k) (rq (next k)) (fr (next k))]) ++ [JCall (next k) (rq (next k)) (fr (next k)) (next k) t o]) by now rewrite <- app_assoc.
          refine (@SCall H alnum enc dec (SConf k (flat_map emb (hist k) ++ [JReq (next k) (rq (next k)) (fr (next k))])) k' (next k) (rq (next k)) (fr (next k)) t o _ _ _ St Hh).
          * cbn [s_log]. apply in_or_app. right. now left.
          * apply (A _ t). rewrite Hh. apply in_or_app. right. now left.
          * cbn [s_log]. intros rq' f' c' t' o' B. apply in_app_or in B as [B|[B|[]]]; [apply Q2 in B; lia|discriminate].
      - rewrite Hh. eapply ServesS; [apply Serves0| |exact En]. exact (@SWork H alnum enc dec (SConf k (flat_map emb (hist k))) k' St Hh).
      - rewrite Hh, flat_map_app. cbn [flat_map ServerConc.emb]. rewrite app_nil_r.
        destruct (i_run L _ Th) as [(o & Io) Nr].
        eapply ServesS; [eapply ServesS; [apply Serves0|exact (@SBack H alnum enc dec (SConf k (flat_map emb (hist k))) k' c r St Hh)|exact En]| |exact En].
        replace (flat_map emb (hist k) ++ [JBack c r; JResp c (respond (fr c) (rq c) r)])
          with ((flat_map emb (hist k) ++ [JBack c r]) ++ [JResp c (respond (fr c) (rq c) r)]) by now rewrite <- app_assoc.
        refine (@SResp H alnum enc dec (SConf k' (flat_map emb (hist k) ++ [JBack c r])) c (rq c) (fr c) c t o r _ _ _); cbn [s_log].
        + apply in_or_app. left. apply in_flat_map. exists (Inv c t o). split; [exact Io|right; now left].
        + apply in_or_app. right. now left.
        + intros r' B. apply in_app_or in B as [B|[B|[]]]; [|discriminate].
          apply in_flat_map in B as ([c1 t1 o1|c1 r1] & Hx & [B|[B|[]]]); inversion B; subst. exact (Nr _ Hx).
    Qed.
    Lemma serves_trans a b c : serves a b -> serves b c -> serves a c.
    Proof. intros X Y. induction Y as [|k k1 k2 Y IH St En]; [exact X|]. eapply ServesS; [apply IH; exact X|exact St|exact En]. Qed.
    Lemma embed_goes s k1 k : RdbProg.rreach H enc dec E s k1 -> goes H enc dec E k1 k ->
      (forall c t o, In (Inv c t o) (hist k) -> call_of (fr c) (rq c) = Some o) ->
      serves (SConf k1 (flat_map emb (hist k1))) (SConf k (flat_map emb (hist k))).
    Proof.
      intros R G A. induction G as [|k1 k2 k3 G IH St En]; [apply Serves0|].
      destruct (goes_reach R G) as (R2 & _). pose proof (hist_step E (hist_reach R2) St) as (_ & l & El).
      eapply serves_trans; [apply IH; [exact R|intros c t o B; apply (A c t); rewrite El; apply in_or_app; now left]|].
      eapply embed_step; eauto.
    Qed.
  End Embed.
End Server.

(** Concrete case, as C61_rocksdb_case but with clients: a vertex is created and a
    sync acknowledged; two clients create another vertex each, one of which is on
    the disk and the other not when the machine dies; after the restart a client
    counts two vertices. *)
Definition rqs1 (c : nat) : request :=
  match c with 0 => RqCreateVertex (to_vertex v1) | 1 => RqSync | 2 => RqCreateVertex (to_vertex v2) | _ => RqCreateVertex (to_vertex v3) end.
Definition rqs2 (c : nat) : request := RqGet (to_query enc0 (QCount QAllVertex)).
Notation log1 := (flat_map (emb alnum0 enc0 dec0 rqs1 (fun _ => u1)) hist1).
Notation log2 := (flat_map (emb alnum0 enc0 dec0 rqs2 (fun _ => u1)) hist2).
Definition kend : RdbProg.rconfig := goes_on (goes_on moment1 0 1) 1 3.
Lemma calls1 c t o : In (Inv c t o) hist1 -> request_op alnum0 dec0 u1 (rqs1 c) = Some o.
Proof. intros Hx. repeat (destruct Hx as [Hx|Hx]; [inversion Hx; subst; vm_compute; reflexivity|]). destruct Hx. Qed.
Lemma calls2 c t o : In (Inv c t o) hist2 -> request_op alnum0 dec0 u1 (rqs2 c) = Some o.
Proof. intros Hx. repeat (destruct Hx as [Hx|Hx]; [inversion Hx; subst; vm_compute; reflexivity|]). destruct Hx. Qed.
Example C61_rocksdb_server_case : exists s, served_life hash0 alnum0 enc0 dec0 succeeds [log1; log2] s /\
  Forall (requests_apart alnum0 dec0) [log1; log2] /\ Forall (good_requests alnum0 enc0 dec0) [log1; log2] /\
  (N.of_nat (length (concat [log1; log2]) + length [log1; log2]) < 2 ^ 64)%N /\
  synced alnum0 dec0 log1 1 /\ In (JResp 0 (SOk (RsStream [SOk (to_out enc0 (Count 2))]))) log2.
Proof.
  destruct C61_rocksdb_case as (_ & _ & Ap & _). apply Forall_cons_iff in Ap as [Ap1 Ap2]. apply Forall_inv in Ap2.
  assert (RdbProg.rreach hash0 enc0 dec0 succeeds rdb_empty moment1 /\ RdbSched.beyond 2 moment1) as [R1 B1].
  { apply schedule_partial with (l := session1); [|reflexivity]. apply some_val. vm_compute. reflexivity. }
  assert (RdbProg.envs succeeds moment1) as E1 by (exact (reach_envs R1)).
  assert (goes hash0 enc0 dec0 succeeds moment1 kend) as G3.
  { destruct (@go_goes moment1 0 1 moment1 (goes_on moment1 0 1)) as (G2 & E2 & B2); [apply some_val; vm_compute; reflexivity|constructor|exact E1|exact B1|].
    apply (@go_goes moment1 1 3 (goes_on moment1 0 1)); [apply some_val; vm_compute; reflexivity|exact G2|exact E2|exact B2]. }
  assert (RdbProg.rreach hash0 enc0 dec0 succeeds reopened (sched reopened session2)) as R2.
  { apply schedule_partial with (l := session2); [|reflexivity]. apply some_val. vm_compute. reflexivity. }
  assert (RdbProg.rc_hist kend = hist1) as Hk by (vm_compute; reflexivity).
  assert (RdbProg.rc_hist moment1 = firstn 6 hist1) as Hm by (vm_compute; reflexivity).
  assert (RdbProg.rc_hist (sched reopened session2) = hist2) as H2 by (vm_compute; reflexivity).
  assert (RdbProg.rreach hash0 enc0 dec0 succeeds rdb_empty kend) as Rk by (apply (goes_reach R1 G3)).
  destruct (@hosted hash0 alnum0 enc0 dec0 succeeds rqs1 (fun _ => u1) _ _ R1) as (S1 & _).
  { rewrite Hm. intros c t o I. apply (@calls1 c t o). rewrite <- (firstn_skipn 6 hist1). apply in_or_app. now left. }
  destruct (@hosted hash0 alnum0 enc0 dec0 succeeds rqs1 (fun _ => u1) _ _ Rk) as (Sk & _ & Apk); [rewrite Hk; exact calls1|].
  destruct (@hosted hash0 alnum0 enc0 dec0 succeeds rqs2 (fun _ => u1) _ _ R2) as (S2 & _ & Ap2'); [rewrite H2; exact calls2|].
  pose proof (@embed_goes hash0 alnum0 enc0 dec0 succeeds rqs1 (fun _ => u1) _ _ _ R1 G3) as Sg. rewrite Hk in Sg. specialize (Sg calls1).
  rewrite Hk in Sk, Apk. rewrite H2 in S2, Ap2'.
  exists (again (sched reopened session2)). split; [|split; [|split; [|split; [|split]]]].
  - change [log1; log2] with (([] ++ [s_log (SConf kend log1)]) ++ [s_log (SConf (sched reopened session2) log2)]).
    eapply SL1 with (s := reopened); [|exact S2|apply Serves0|auto|cbn [s_lib]; apply again_ok; vm_compute; reflexivity].
    eapply SL1 with (s := rdb_empty); [apply SL0|exact S1|exact Sg| |cbn [s_lib]; apply again_ok; vm_compute; reflexivity].
    cbn [s_log]. rewrite Hm. intros c rq f c' t r I _.
    apply in_flat_map in I as (x & Hx & I). apply in_flat_map. exists x. split; [|exact I]. clear - Hx I.
    cbn in Hx. repeat (destruct Hx as [<-|Hx]; [cbn in I; repeat (destruct I as [I|I]; [try discriminate I; inversion I; subst; cbn; tauto|]); destruct I|]). destruct Hx.
  - constructor; [apply Apk; exact Ap1|constructor; [apply Ap2'; exact Ap2|constructor]].
  - assert (forall rq h, (forall c t o, In (Inv c t o) h -> request_op alnum0 dec0 u1 (rq c) = Some o) -> (forall c t o, In (Inv c t o) h -> good_op enc0 dec0 o) ->
      good_requests alnum0 enc0 dec0 (flat_map (emb alnum0 enc0 dec0 rq (fun _ => u1)) h)) as K.
    { intros rq h C Gd c rq1 f1 o I O. apply in_flat_map in I as ([c1 t1 o1|c1 r1] & Hx & [I|[I|[]]]); inversion I; subst.
      rewrite (C _ _ _ Hx) in O. inversion O; subst. eauto. }
    constructor; [|constructor; [|constructor]]; apply K; [exact calls1| |exact calls2|];
      intros c t o I; cbn in I; repeat (destruct I as [I|I]; [try discriminate I; injection I as <- <- <-; exact Logic.I|]); destruct I.
  - vm_compute. reflexivity.
  - exists RqSync, u1, RsEmpty. split; [|split; [reflexivity|]]; apply in_flat_map.
    + exists (Inv 1 0 OSync). split; [cbn; tauto|now left].
    + exists (Ret 1 (Ok RUnit)). split; [cbn; tauto|right; now left].
  - apply in_flat_map. exists (Ret 0 (Ok (ROut [Count 2]))). split; [cbn; tauto|]. right. left. apply f_equal. vm_compute. reflexivity.
Qed.
