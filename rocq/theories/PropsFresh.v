(** * C62: ids the library makes up are new

    [create_vertex_from_type], [Vertex::new] and the command line client make up
    ids with [generate_uuid_v1] (UuidV1.v).  Which ids of a process can be equal,
    what they look like, and that a vertex created with one is never refused. *)
From Verif Require Import Base OMap Json Types Util Db Mem Rdb Spec QueryFacts SpecFacts UtilFacts MemFacts MemHist RdbSpec
  RdbHist RdbRefine RdbGraph Stages Effects Claims PropsMem PropsRdb UuidV1 Examples.

Set Implicit Arguments.

(** A process: [clk i] is what the clock shows when its [i]-th id is made. *)
Definition clock := N -> reading.
Definition made (clk : clock) (i : N) : uuid := generate_uuid_v1 (clk i) i.

(** ** When two ids are equal *)

(** Time since 1970 in units of 100 ns; times that are meant: before the year
    5138. *)
Definition stamp (r : reading) : N := (secs r * 10 ^ 7 + nanos r / 100)%N.
Definition sane (r : reading) : Prop := (nanos r < 10 ^ 9 /\ secs r < 10 ^ 11)%N.

Lemma ticks_exact r : sane r -> ticks r = (122192928000000000 + stamp r)%N /\ (ticks r < 2 ^ 60)%N.
Proof.
  intros [A B]. unfold ticks, stamp. assert (nanos r / 100 < 10 ^ 7)%N as D by (apply N.div_lt_upper_bound; lia).
  assert (122192928000000000 + secs r * 10000000 + nanos r / 100 < 2 ^ 60)%N as L by lia. rewrite N.mod_small by lia. split; lia.
Qed.

(** Exactly when they are a multiple of 2^14 apart and made in the same 100 ns.
    The same for ids of two processes, each of which counts from zero. *)
Theorem C62_exact clk clk' i j : sane (clk i) -> sane (clk' j) ->
  made clk i = made clk' j <-> stamp (clk i) = stamp (clk' j) /\ (i mod 2 ^ 14 = j mod 2 ^ 14)%N.
Proof.
  intros Si Sj. unfold made, generate_uuid_v1. rewrite v1_inj, !sequence_eq. rewrite !(N.mod_mod _ (2 ^ 14)) by discriminate.
  destruct (ticks_exact Si) as [E1 B1]. destruct (ticks_exact Sj) as [E2 B2]. rewrite !(N.mod_small (ticks _)) by assumption. rewrite E1, E2.
  split; intros [A B]; split; auto; lia.
Qed.

(** The first [n] ids of a process differ if, while they are made, the clock does
    not go back and no 2^14 + 1 ids in a row are made in the same 100 ns. *)
Definition regular (n : N) (clk : clock) : Prop :=
  (forall i, i < n -> sane (clk i))%N /\
  (forall i j, i <= j -> j < n -> stamp (clk i) <= stamp (clk j))%N /\
  (forall i, i + 2 ^ 14 < n -> stamp (clk i) < stamp (clk (i + 2 ^ 14)))%N.

Theorem C62_unique n clk i j : regular n clk -> (i < n)%N -> (j < n)%N -> made clk i = made clk j -> i = j.
Proof.
  intros (R & Mo & St) Hi Hj E. apply C62_exact in E as [T C]; auto.
  assert (forall a b, (a < b)%N -> (b < n)%N -> (a mod 2 ^ 14 = b mod 2 ^ 14)%N -> (stamp (clk a) < stamp (clk b))%N) as K.
  { intros a b L Hb E. assert (a + 2 ^ 14 <= b)%N as G.
    { pose proof (N.div_mod a (2 ^ 14) ltac:(discriminate)) as Da. pose proof (N.div_mod b (2 ^ 14) ltac:(discriminate)) as Db. rewrite E in Da.
      generalize dependent (b mod 2 ^ 14)%N. generalize (a / 2 ^ 14)%N (b / 2 ^ 14)%N. intros x y z _ Dx Dy. lia. }
    eapply N.lt_le_trans; [apply St; lia|]. now apply Mo. }
  destruct (N.lt_trichotomy i j) as [L|[E|L]]; [|assumption|].
  - pose proof (K i j L Hj C). lia.
  - pose proof (K j i L Hi (eq_sym C)). lia.
Qed.

(** A process started after another one has ended (a later clock) repeats none of
    its ids. *)
Theorem C62_restart n n' clk clk' i j : regular n clk -> regular n' clk' ->
  (forall a b, a < n -> b < n' -> stamp (clk a) < stamp (clk' b))%N -> (i < n)%N -> (j < n')%N -> made clk i <> made clk' j.
Proof.
  intros (R & _) (R' & _) L Hi Hj E. apply C62_exact in E as [T _]; auto. specialize (L i j Hi Hj). lia.
Qed.

(** ** What they look like *)

(** A version 1 UUID (RFC 9562: version in the seventh byte, variant in the
    ninth) with node id zero. *)
Definition v1_shape (u : uuid) : Prop :=
  (bN (nth 6 (proj1_sig u) x00) / 16 = 1)%N /\ (bN (nth 8 (proj1_sig u) x00) / 64 = 2)%N /\ skipn 10 (proj1_sig u) = repeat x00 6.

Lemma v1_list t c : exists a b c1 d e f g i k, v1_bytes t c = [a; b; c1; d; e; f; byte_of (((t / 2 ^ 48) mod 2 ^ 12 + 2 ^ 12) / 256); g;
  byte_of ((c / 2 ^ 8) mod 2 ^ 6 + 128); i] ++ k /\ k = repeat x00 6.
Proof. do 9 eexists. split; [|reflexivity]. unfold v1_bytes. cbn [be_bytes app node_id repeat]. reflexivity. Qed.

Theorem C62_shape r i : v1_shape (generate_uuid_v1 r i).
Proof.
  unfold v1_shape, generate_uuid_v1. cbn [proj1_sig uuid_v1]. destruct (v1_list (ticks r) (sequence i)) as (a & b & c & d & e & f & g & k & l & -> & ->).
  cbn [app nth skipn]. rewrite !bN_byte_of. generalize (ticks r / 2 ^ 48)%N (sequence i / 2 ^ 8)%N. intros x y.
  pose proof (N.mod_lt x (2 ^ 12) ltac:(discriminate)) as L. pose proof (N.mod_lt y (2 ^ 6) ltac:(discriminate)) as L'.
  generalize dependent (x mod 2 ^ 12)%N. generalize dependent (y mod 2 ^ 6)%N. intros z Lz w Lw. conj; [| |reflexivity].
  - replace (w + 2 ^ 12)%N with (w + 16 * 256)%N by lia. rewrite N.div_add by discriminate. assert (w / 256 < 16)%N as D by (apply N.div_lt_upper_bound; lia).
    rewrite N.mod_small by lia. symmetry. apply N.div_unique with (r := (w / 256)%N); lia.
  - rewrite N.mod_small by lia. symmetry. apply N.div_unique with (r := z); lia.
Qed.

(** Neither the largest UUID, which breaks queries (C17), nor the nil UUID. *)
Theorem C62_not_extreme u : v1_shape u -> ~ is_max u /\ u <> nil_uuid.
Proof.
  intros (_ & V & S0). split.
  - intros M. apply next_uuid_max in M. unfold next_uuid, next_bytes, ub in M.
    rewrite <- (firstn_skipn 10 (proj1_sig u)), S0, rev_app_distr in M. cbn [repeat rev app incr_rev] in M.
    destruct (bN x00 <? 255)%N eqn:B; [|discriminate]. cbn [option_map] in M. destruct (mk_uuid _); discriminate.
  - intros ->. revert V. vm_compute. discriminate.
Qed.

(** ** In a database *)

(** A program: it creates vertices by type only ([create_vertex_from_type]), or
    from [Vertex::new], which makes up the id (models/vertices.rs 27-29), and makes
    any other calls. *)
Inductive call := New (t : ident) | Make (t : ident) | Call (o : op).
(** The ids of vertices that a call brings in itself. *)
Definition brings (o : op) : list uuid :=
  match o with
  | OCreateVertex v => [vid v]
  | OCreateVertexFromType id _ => [id]
  | OBulkInsert items => flat_map (fun it => match it with BVertex v => [vid v] | _ => [] end) items
  | _ => []
  end.
(** The calls of the program, the [k]-th id being the next one made. *)
Fixpoint resolved (clk : clock) (k : N) (cs : list call) : list op :=
  match cs with
  | [] => []
  | New t :: cs => OCreateVertexFromType (made clk k) t :: resolved clk (k + 1) cs
  | Make t :: cs => OCreateVertex (Vertex (made clk k) t) :: resolved clk (k + 1) cs
  | Call o :: cs => o :: resolved clk k cs
  end.
Fixpoint news (cs : list call) : N := match cs with [] => 0 | New _ :: cs | Make _ :: cs => 1 + news cs | Call _ :: cs => news cs end%N.
(** What the program brings in has other shapes (such as random ids), or any property [P]. *)
Definition own_ids (P : uuid -> Prop) (cs : list call) : Prop := forall o u, In (Call o) cs -> In u (brings o) -> P u.

Lemma resolved_ids clk cs : forall k o u, In o (resolved clk k cs) -> In u (brings o) ->
  (exists o', In (Call o') cs /\ In u (brings o')) \/ exists i, (k <= i < k + news cs)%N /\ u = made clk i.
Proof.
  assert (forall k t o, In o [OCreateVertexFromType (made clk k) t; OCreateVertex (Vertex (made clk k) t)] -> forall u, In u (brings o) -> u = made clk k) as B1.
  { intros k t o [<-|[<-|[]]] u [<-|[]]; reflexivity. }
  induction cs as [|c cs IH]; intros k o u Ho Hu; [contradiction|].
  assert (In o (resolved clk k [c]) \/ In o (resolved clk (k + news [c]) cs)) as [D|D].
  { destruct c; cbn [resolved news] in *; rewrite ?N.add_0_r; destruct Ho as [<-|Ho]; auto; left; now left. }
  - destruct c; cbn [resolved] in D; destruct D as [<-|[]].
    + right. exists k. split; [cbn [news]; lia|]. eapply B1; [now left|exact Hu].
    + right. exists k. split; [cbn [news]; lia|]. eapply B1; [right; now left|exact Hu].
    + left. exists o0. split; [now left|assumption].
  - assert (news (c :: cs) = news [c] + news cs)%N as -> by (destruct c; cbn [news]; lia).
    destruct (IH _ _ _ D Hu) as [(o1 & A & B)|(i & A & B)]; [left; exists o1; split; [now right|assumption]|right; exists i; split; [lia|assumption]].
Qed.

(** *** Vertices come from calls *)

Definition act_brings (a : action) : list uuid :=
  match a with
  | ACreateVertex v => [vid v]
  | ABulk items => flat_map (fun it => match it with BVertex v => [vid v] | _ => [] end) items
  | _ => []
  end.
Lemma request_brings {X} (ops : txn_ops X) s g o u : In u (act_brings (snd (request ops s g o))) -> In u (brings o).
Proof.
  destruct o; cbn [request]; cbn [snd act_brings brings]; auto.
  - destruct (mem _ _); cbn; auto.
  - destruct (answer ops s q) as [[]| |]; cbn; auto.
  - destruct (answer ops s q) as [[]| |]; cbn; auto.
Qed.
Definition holds (g : graph) (id : uuid) : Prop := exists t, get id (gv g) = Some t.
Lemma set_holds g id t u : holds (Graph (set id t (gv g)) (ge g) (gvp g) (gep g) (gix g)) u -> holds g u \/ u = id.
Proof.
  intros (t' & E). cbn [gv] in E. rewrite get_set in E. destruct (eqb u id) eqn:D; [right; now apply eqb_eq in D|left; now exists t'].
Qed.
Lemma vprops_gv ids n x : forall g, gv (g_set_vertex_properties g ids n x) = gv g.
Proof. unfold g_set_vertex_properties. cbn. reflexivity. Qed.
Lemma eprops_gv es n x : forall g, gv (g_set_edge_properties g es n x) = gv g.
Proof. unfold g_set_edge_properties. cbn. reflexivity. Qed.
Lemma create_holds g v u : holds (g_create_vertex g v) u -> holds g u \/ u = vid v.
Proof. unfold g_create_vertex. destruct (mem _ _); [auto|]. apply set_holds. Qed.
Lemma edge_gv g e : gv (g_create_edge g e) = gv g.
Proof. unfold g_create_edge. now destruct (_ && _). Qed.
Lemma filt_holds p g es vp ep ix u : holds (Graph (filt p (gv g)) es vp ep ix) u -> holds g u.
Proof. intros (t & E). cbn [gv] in E. rewrite get_filt in E. destruct (get u (gv g)) as [w|] eqn:G; [now exists w|discriminate]. Qed.

Lemma apply_holds g a u : holds (g_apply g a) u -> holds g u \/ In u (act_brings a).
Proof.
  destruct a; cbn [g_apply act_brings]; auto.
  - intros H. destruct (create_holds g v H) as [| ->]; cbn; auto.
  - unfold holds. rewrite edge_gv. auto.
  - intros H. left. now apply filt_holds in H.
  - unfold g_bulk_insert. revert g. induction items as [|it items IH]; intros g; cbn [fold_left flat_map]; [auto|]. intros H.
    rewrite in_app_iff. destruct (IH _ H) as [G|G]; [|auto]. destruct it; cbn [g_bulk_item] in G.
    + destruct (create_holds g v G) as [| ->]; cbn; auto.
    + unfold holds in G. rewrite edge_gv in G. auto.
    + auto.
    + auto.
Qed.
Lemma r_apply_holds g a u : holds (r_apply g a) u -> holds g u \/ In u (act_brings a).
Proof.
  destruct a; try apply apply_holds; cbn [r_apply act_brings]; auto.
  - intros H. left. now apply filt_holds in H.
  - unfold r_bulk_insert. revert g. induction items as [|it items IH]; intros g; cbn [fold_left flat_map]; [auto|]. intros H.
    rewrite in_app_iff. destruct (IH _ H) as [G|G]; [|auto]. destruct it; cbn [r_bulk_item] in G; auto.
    apply set_holds in G; destruct G as [| ->]; cbn; auto.
Qed.

Lemma mem_brought dbg h : forall m u, mem_run dbg h = Some m -> holds (gof m) u -> exists o, In o (map snd h) /\ In u (brings o).
Proof.
  induction h as [|x h IH] using rev_ind; intros m u R Hu.
  - cbn in R. inversion R; subst. destruct Hu as (t & E). cbn in E. discriminate.
  - rewrite mem_run_snoc in R. apply mem_step_Some in R as (m0 & r & E0 & E & N & _).
    destruct (@mem_effect dbg (fst x) m0 (snd x) r m (@run_mirror dbg h m0 E0) E N) as [_ G]. rewrite G in Hu. rewrite map_app. cbn [map].
    destruct (apply_holds _ _ Hu) as [Hu'|Hu'].
    + destruct (IH m0 u E0 Hu') as (o & A & B). exists o. split; [apply in_or_app; now left|assumption].
    + exists (snd x). split; [apply in_or_app; right; now left|]. eapply request_brings; eauto.
Qed.
Lemma rdb_brought H enc dec h : forall u, good_history enc dec h -> holds (rgof dec (rdb_run H enc dec h)) u ->
  exists o, In o (map snd h) /\ In u (brings o).
Proof.
  induction h as [|x h IH] using rev_ind; intros u G Hu.
  - destruct Hu as (t & E). cbn in E. discriminate.
  - apply Forall_app in G as [G Gx]. apply Forall_cons_iff in Gx as [Gx _]. rewrite rdb_run_snoc in Hu. rewrite map_app. cbn [map].
    destruct (exec (rdb_ops H enc dec (fst x)) (rdb_run H enc dec h) (snd x)) as [r s'] eqn:E. cbn [snd] in Hu.
    assert (holds (rgof dec (rdb_run H enc dec h)) u \/ In u (brings (snd x))) as [K|K].
    { destruct (@rdb_effect H enc dec (fst x) h (snd x) r s' G Gx E) as [[_ D]|(_ & _ & D & _)].
      - rewrite D in Hu. destruct (r_apply_holds _ _ Hu) as [|K]; [now left|right; eapply request_brings; eauto].
      - left. unfold rgof in *. unfold holds in *. cbn [gv] in *. now rewrite <- D. }
    + destruct (IH u G K) as (o & A & B). exists o. split; [apply in_or_app; now left|assumption].
    + exists (snd x). split; [apply in_or_app; right; now left|assumption].
Qed.

(** *** Creating a vertex by type never fails because the id is taken *)

Lemma never_brought n clk cs o : regular n clk -> (news cs < n)%N -> own_ids (fun u => ~ v1_shape u) cs ->
  In o (resolved clk 0 cs) -> ~ In (made clk (news cs)) (brings o).
Proof.
  intros Re L Ow A B. destruct (@resolved_ids clk cs 0%N _ _ A B) as [(o' & A' & B')|(i & Li & Ei)]; [exact (Ow o' _ A' B' (C62_shape _ _))|].
  apply (C62_unique Re) in Ei; lia.
Qed.

Theorem C62_mem_new dbg clk cs t h m ord :
  regular (news cs + 1) clk -> own_ids (fun u => ~ v1_shape u) cs ->
  map snd h = resolved clk 0 cs -> mem_run dbg h = Some m ->
  let id := made clk (news cs) in
  get id (gv (gof m)) = None /\
  (forall r m', exec (mem_ops dbg ord) m (OCreateVertexFromType id t) = (r, m') ->
     r = Ok (RUuid id) /\ vertex_created (Vertex id t) (gof m) (gof m')) /\
  (forall r m', exec (mem_ops dbg ord) m (OCreateVertex (Vertex id t)) = (r, m') ->
     r = Ok (RBoolean true) /\ vertex_created (Vertex id t) (gof m) (gof m')).
Proof.
  intros Re Ow Hh R id.
  assert (forall t0, get id (gv (gof m)) <> Some t0) as K.
  { intros t0 G. destruct (@mem_brought dbg h m id R (ex_intro _ t0 G)) as (o & A & B). rewrite Hh in A.
    refine (@never_brought _ clk cs o Re _ Ow A B); lia. }
  split; [destruct (get id (gv (gof m))) as [t0|]; [now elim (K t0)|reflexivity]|]. split; intros r m' E.
  - destruct (@C40_mem_fresh dbg h m R ord id t r m' E) as [[-> C]|(_ & (t' & Ex) & _)]; [auto|now elim (K t')].
  - destruct (@C02_mem_create_vertex dbg h m R ord (Vertex id t) r m' E) as [[-> C]|(_ & (t' & Ex) & _)]; [auto|now elim (K t')].
Qed.

Theorem C62_rdb_new H enc dec clk cs t h env :
  regular (news cs + 1) clk -> own_ids (fun u => ~ v1_shape u) cs ->
  map snd h = resolved clk 0 cs -> good_history enc dec h ->
  let s := rdb_run H enc dec h in let id := made clk (news cs) in
  get id (gv (rgof dec s)) = None /\
  (forall r s', exec (rdb_ops H enc dec env) s (OCreateVertexFromType id t) = (r, s') ->
     r = Ok (RUuid id) /\ vertex_created (Vertex id t) (rgof dec s) (rgof dec s') \/ r = Err EDatastore /\ s' = s) /\
  (forall r s', exec (rdb_ops H enc dec env) s (OCreateVertex (Vertex id t)) = (r, s') ->
     r = Ok (RBoolean true) /\ vertex_created (Vertex id t) (rgof dec s) (rgof dec s') \/ r = Err EDatastore /\ s' = s).
Proof.
  intros Re Ow Hh G s id.
  assert (forall t0, get id (gv (rgof dec s)) <> Some t0) as K.
  { intros t0 G0. destruct (@rdb_brought H enc dec h id G (ex_intro _ t0 G0)) as (o & A & B). rewrite Hh in A.
    refine (@never_brought _ clk cs o Re _ Ow A B); lia. }
  split; [destruct (get id (gv (rgof dec s))) as [t0|] eqn:X; [now elim (K t0)|reflexivity]|]. split; intros r s' E.
  - destruct (@C40_rdb_fresh H enc dec h G env id t r s' E) as [[-> C]|[(_ & (t' & Ex) & _)|[-> ->]]]; auto. now elim (K t').
  - destruct (@C02_rdb_create_vertex H enc dec h G env (Vertex id t) r s' E) as [[-> C]|[(_ & (t' & Ex) & _)|[-> ->]]]; auto. now elim (K t').
Qed.

(** If the program brings in no vertex with the largest UUID, no call panics (the
    in-memory database, release build: C17's other case cannot occur). *)
Theorem C62_mem_no_panic clk cs h m ord o r m' :
  own_ids (fun u => ~ is_max u) cs -> map snd h = resolved clk 0 cs -> mem_run false h = Some m ->
  exec (mem_ops false ord) m o = (r, m') -> r <> Panic.
Proof.
  intros Ow Hh R E ->. destruct (@C17_mem_panic_partial false h m R ord o m' E) as [[D _]|(q & _ & _ & v & Hv & Mx)]; [discriminate|].
  assert (holds (gof m) (vid v)) as Hd by (exists (vt v); exact Hv).
  destruct (@mem_brought false h m (vid v) R Hd) as (o' & A & B). rewrite Hh in A.
  destruct (@resolved_ids clk cs 0%N _ _ A B) as [(o1 & A' & B')|(i & _ & Ei)]; [exact (Ow o1 _ A' B' Mx)|].
  rewrite Ei in Mx. exact (proj1 (C62_not_extreme (C62_shape _ _)) Mx).
Qed.

(** ** What is false: ids of different processes

    Every process counts from zero and uses the same node id: two clients that
    make an id in the same 100 ns (such as two runs of the command line client,
    each of which makes its first id) make the same one, and the second vertex is
    refused, although both asked for a new one. *)
Theorem C62_processes_refuted clk clk' : sane (clk 0%N) -> sane (clk' 0%N) ->
  stamp (clk 0%N) = stamp (clk' 0%N) -> made clk 0 = made clk' 0.
Proof. intros A B E. now apply C62_exact. Qed.

(** *** Concrete cases *)

(** A clock that moves on by 100 ns for every second id, from November 2023. *)
Definition clk0 : clock := fun i => Reading 1700000000 (i / 2 * 100).
Lemma clk0_regular : regular (2 ^ 20) clk0.
Proof.
  assert (forall i, stamp (clk0 i) = (1700000000 * 10 ^ 7 + i / 2)%N) as T.
  { intros i. unfold stamp. cbn [nanos secs clk0]. now rewrite N.div_mul by discriminate. }
  unfold regular. conj.
  - intros i Hi. assert (i / 2 < 2 ^ 19)%N as D by (apply N.div_lt_upper_bound; lia). unfold sane. cbn [nanos secs clk0]. split; [lia|reflexivity].
  - intros i j L Hj. rewrite !T by lia. pose proof (N.div_le_mono i j 2 ltac:(discriminate) L). lia.
  - intros i Hi. rewrite !T by lia. replace (i + 2 ^ 14)%N with (i + 2 ^ 13 * 2)%N by lia. rewrite N.div_add by discriminate. lia.
Qed.

(** Two vertices by type, one of the program's own, one deleted again; the third
    by type gets a third id. *)
Definition calls0 : list call := [New t_person; Call (OCreateVertex v1); Make t_person; Call (ODelete (q_vertex (made clk0 0)))].
Definition hist0 : list (order * op) := map (fun o => (id_order, o)) (resolved clk0 0 calls0).
Example C62_case : exists m m', mem_run false hist0 = Some m /\
  exec (mem_ops false id_order) m (OCreateVertexFromType (made clk0 2) t_person) = (Ok (RUuid (made clk0 2)), m') /\
  get (made clk0 2) (gv (gof m)) = None /\ made clk0 0 <> made clk0 2 /\ made clk0 1 <> made clk0 2.
Proof.
  assert (exists m, mem_run false hist0 = Some m) as (m & R) by (eexists; reflexivity).
  destruct (exec (mem_ops false id_order) m (OCreateVertexFromType (made clk0 2) t_person)) as [r m'] eqn:E. exists m, m'. split; [exact R|].
  assert (regular (news calls0 + 1) clk0) as Re.
  { destruct clk0_regular as (A & B & C). unfold regular. change (news calls0 + 1)%N with 3%N. conj; intros.
    - apply A. lia. - apply B; lia. - apply C; lia. }
  assert (own_ids (fun u => ~ v1_shape u) calls0) as Ow.
  { intros o u [X|[X|[X|[X|[]]]]] Hu; inversion X; subst o; cbn [brings In] in Hu; [|contradiction]. destruct Hu as [<-|[]].
    intros (V & _). revert V. vm_compute. discriminate. }
  assert (map snd hist0 = resolved clk0 0 calls0) as Hh by (unfold hist0; rewrite map_map; apply map_id).
  destruct (@C62_mem_new false clk0 calls0 t_person hist0 m id_order Re Ow Hh R) as (G & F & _). destruct (F r m' E) as [-> _]. conj; [exact E|exact G| |].
  - intros X. now apply (C62_unique Re) in X.
  - intros X. now apply (C62_unique Re) in X.
Qed.

(** Two command line clients at the same moment: the second is refused. *)
Example C62_processes_case : exists m1 m2,
  exec (mem_ops false id_order) mem_empty (OCreateVertex (Vertex (made clk0 0) t_person)) = (Ok (RBoolean true), m1) /\
  exec (mem_ops false id_order) m1 (OCreateVertex (Vertex (made (fun _ => clk0 0%N) 0) t_person)) = (Ok (RBoolean false), m2).
Proof. do 2 eexists. split; reflexivity. Qed.
