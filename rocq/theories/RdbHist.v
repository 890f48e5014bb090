(** * Histories of calls on the RocksDB datastore. *)
From Verif Require Import Base OMap Json Types Util Db Rdb Spec QueryFacts SpecFacts QueryTrust JsonFacts UtilFacts
  MemFacts MemRefine MemHist KeyFacts RdbSpec RdbRep RdbWrite RdbPut RdbRefine RdbGraph.

Set Implicit Arguments.

(** ** Invariants of the RocksDB effects *)

(** Every edge has an outbound vertex. *)
Definition outbound_exist (g : graph) : Prop := forall e, is_edge g e -> mem (eout e) (gv g) = true.

Lemma outbound_apply g a : (forall items, a <> ABulk items) -> outbound_exist g -> outbound_exist (r_apply g a).
Proof.
  intros NB O. destruct a; cbn [r_apply g_apply]; try exact O.
  - intros e He. rewrite create_vertex_mem. apply orb_true_iff. right. apply O.
    unfold is_edge, g_create_vertex in *. destruct (mem (vid v) (gv g)); exact He.
  - intros f Hf. unfold is_edge in Hf. rewrite create_edge_mem in Hf.
    assert (gv (g_create_edge g e) = gv g) as -> by (unfold g_create_edge; now destruct (mem (eout e) (gv g) && mem (ein e) (gv g))).
    apply orb_true_iff in Hf as [Hf|Hf]; [|now apply O].
    apply andb_true_iff in Hf as [Hf HM]. apply eqb_eq in Hf. subst. now apply andb_true_iff in HM.
  - intros e He. unfold is_edge, r_delete_vertices in *. cbn [ge gv] in *.
    rewrite (mem_filt (fun e => negb (inb (eout e) ids))) in He. apply andb_true_iff in He as [Hi He].
    rewrite (mem_filt (fun i => negb (inb i ids))), Hi. cbn. now apply O.
  - intros e He. unfold is_edge, r_delete_edges, g_delete_edges in *. cbn [ge gv] in *.
    rewrite (mem_filt (fun k => negb (inb k (filter (fun f => mem (eout f) (gv g)) es)))) in He.
    apply andb_true_iff in He as [_ He]. now apply O.
  - now elim (NB items).
Qed.

(** Calls that only write properties of elements that exist or that the call
    itself inserts earlier. *)
Definition rtidy_item (g : graph) (it : bulk_item) : Prop :=
  match it with
  | BVProp id _ _ => mem id (gv g) = true
  | BEProp e _ _ => mem e (ge g) = true
  | _ => True
  end.
Fixpoint rtidy_items (g : graph) (items : list bulk_item) : Prop :=
  match items with
  | [] => True
  | it :: r => rtidy_item g it /\ rtidy_items (r_bulk_item g it) r
  end.
Definition rtidy_op (g : graph) (o : op) : Prop :=
  match o with
  | OBulkInsert items => rtidy_items g items /\ consistent items
  | TSetVertexProperties ids _ _ => forall id, In id ids -> mem id (gv g) = true
  | TSetEdgeProperties es _ _ => forall e, In e es -> mem e (ge g) = true
  | _ => True
  end.

Lemma no_orphans_ritem g it : rtidy_item g it -> no_orphans g -> no_orphans (r_bulk_item g it).
Proof.
  destruct it as [v|e|id n x|e n x]; cbn [rtidy_item r_bulk_item]; intros Ht.
  - intros [Hv He]. split; cbn; [|exact He]. intros id n x Hx. rewrite mem_set. apply orb_true_iff. right. eapply Hv; eauto.
  - intros [Hv He]. split; cbn; [exact Hv|]. intros f n x Hx. rewrite mem_add. apply orb_true_iff. right. eapply He; eauto.
  - apply no_orphans_set_vprops. intros i [<-|[]]. assumption.
  - apply no_orphans_set_eprops. intros i [<-|[]]. assumption.
Qed.
Lemma no_orphans_rbulk items : forall g, rtidy_items g items -> no_orphans g -> no_orphans (r_bulk_insert g items).
Proof.
  unfold r_bulk_insert. induction items as [|it items IH]; intros g; cbn [rtidy_items fold_left]; [auto|].
  intros [H1 H2] H. apply IH; auto. now apply no_orphans_ritem.
Qed.

Lemma no_orphans_rdelete g ids : no_orphans g -> no_orphans (r_delete_vertices g ids).
Proof.
  intros [Hv He]. split; cbn.
  - intros id n x. rewrite (get_filt_key (fun k => negb (inb (fst k) ids))), (mem_filt (fun k => negb (inb k ids))).
    cbn [fst]. destruct (negb (inb id ids)); [|discriminate]. cbn. apply Hv.
  - intros e n x. rewrite (get_filt_key (fun k => negb (inb (eout (fst k)) ids && (mem (fst k) (ge g) || mem (reversed (fst k)) (ge g))))),
      (mem_filt (fun k => negb (inb (eout k) ids))). cbn [fst].
    destruct (negb (inb (eout e) ids && _)) eqn:E; [|discriminate]. intros H. apply He in H.
    rewrite H, orb_true_l, andb_true_r in *. rewrite E. reflexivity.
Qed.

Lemma no_orphans_rstep tlt vmatch g o r g' :
  rtidy_op g o -> r_step tlt vmatch g o r g' -> no_orphans g -> no_orphans g'.
Proof.
  intros Ht (a & HR & ->) NO. destruct HR; cbn [r_apply g_apply rtidy_op] in *; try exact NO.
  - now apply no_orphans_create_vertex.
  - now apply no_orphans_create_vertex.
  - now apply no_orphans_create_edge.
  - now apply no_orphans_rdelete.
  - now apply no_orphans_delete_edges.
  - now apply no_orphans_delete_vprops.
  - now apply no_orphans_delete_eprops.
  - apply no_orphans_set_vprops; [|assumption]. intros id Hid. apply in_map_iff in Hid as (v & <- & Hv).
    apply evals_exists in H. cbn in H. rewrite Forall_forall in H. apply H in Hv. apply mem_get. eauto.
  - apply no_orphans_set_eprops; [|assumption]. intros e Hin.
    apply evals_exists in H. cbn in H. rewrite Forall_forall in H. now apply H in Hin.
  - now apply no_orphans_rbulk.
  - destruct NO as [Hv He]. split; [exact Hv|exact He].
  - now apply no_orphans_rdelete.
  - now apply no_orphans_delete_edges.
  - now apply no_orphans_delete_vprops.
  - now apply no_orphans_delete_eprops.
  - now apply no_orphans_set_vprops.
  - now apply no_orphans_set_eprops.
Qed.

(** ** When the RocksDB effect is the specified one *)

Definition agrees_item (g : graph) (it : bulk_item) : Prop :=
  match it with
  | BVertex v => forall t, get (vid v) (gv g) = Some t -> t = vt v
  | BEdge e => mem (eout e) (gv g) = true /\ mem (ein e) (gv g) = true
  | _ => True
  end.
Fixpoint agrees_items (g : graph) (items : list bulk_item) : Prop :=
  match items with
  | [] => True
  | it :: r => agrees_item g it /\ agrees_items (g_bulk_item g it) r
  end.
Definition agrees (g : graph) (a : action) : Prop :=
  match a with
  | ADeleteVertices ids => forall e, is_edge g e -> In (ein e) ids -> In (eout e) ids
  | ABulk items => agrees_items g items
  | _ => True
  end.

Lemma r_bulk_agrees items : forall g, agrees_items g items -> r_bulk_insert g items = g_bulk_insert g items.
Proof.
  unfold r_bulk_insert, g_bulk_insert. induction items as [|it items IH]; intros g; cbn [agrees_items fold_left]; [auto|].
  intros [A As]. assert (r_bulk_item g it = g_bulk_item g it) as ->.
  { destruct it as [v|e|id n x|e n x]; cbn [r_bulk_item g_bulk_item agrees_item] in *; auto.
    - unfold g_create_vertex. destruct (mem (vid v) (gv g)) eqn:E; [|reflexivity].
      apply mem_get in E as (t & Ht). rewrite (A t Ht) in Ht. rewrite set_same by assumption. now destruct g.
    - unfold g_create_edge. destruct A as [-> ->]. reflexivity. }
  now apply IH.
Qed.

Lemma filt_ext {K V} {O : Ord K} (f h : K * V -> bool) (t : omap K V) :
  (forall k v, get k t = Some v -> f (k, v) = h (k, v)) -> filt f t = filt h t.
Proof.
  intros E. apply omap_ext. intros k. rewrite !get_filt. destruct (get k t) as [v|] eqn:G; [|reflexivity].
  now rewrite (E k v G).
Qed.

Lemma r_apply_agrees g a : no_orphans g -> outbound_exist g -> agrees g a -> r_apply g a = g_apply g a.
Proof.
  intros NO OE. destruct a; cbn [agrees r_apply g_apply]; auto.
  - intros A. unfold r_delete_vertices, g_delete_vertices.
    assert (forall e, mem e (ge g) = true -> inb (eout e) ids = incident ids e) as I.
    { intros e He. unfold incident. destruct (inb (eout e) ids) eqn:E; [reflexivity|]. cbn.
      destruct (inb (ein e) ids) eqn:F; [|reflexivity]. apply inb_In in F. apply A in F; [|exact He].
      apply inb_In in F. congruence. }
    f_equal.
    + apply filt_ext. intros e [] He. cbn [fst]. apply get_oset in He. now rewrite I.
    + apply filt_ext. intros [e n] x Hx. cbn [fst]. pose proof (no_eorphan NO _ _ Hx) as He.
      now rewrite He, I.
  - intros _. unfold r_delete_edges, g_delete_edges.
    assert (forall e, mem e (ge g) = true -> inb e (filter (fun f => mem (eout f) (gv g)) es) = inb e es) as I.
    { intros e He. destruct (inb e es) eqn:E.
      - apply inb_In. apply filter_In. split; [now apply inb_In|]. now apply OE.
      - destruct (inb e (filter _ es)) eqn:F; [|reflexivity]. apply inb_In, filter_In in F as [F _]. apply inb_In in F.
        congruence. }
    f_equal.
    + apply filt_ext. intros e [] He. cbn [fst]. apply get_oset in He. now rewrite I.
    + apply filt_ext. intros [e n] x Hx. cbn [fst]. pose proof (no_eorphan NO _ _ Hx) as He. now rewrite I.
  - apply r_bulk_agrees.
Qed.

Section Hist.
  Variable H : list byte -> N.
  Variable enc : json -> bytes.
  Variable dec : bytes -> option json.
  Notation rep := (rep H enc dec).
  Notation run := (rdb_run H enc dec).
  Notation good_op := (good_op enc dec).
  Notation rgof := (rgof dec).

  Lemma rdb_run_snoc h x : run (h ++ [x]) = snd (exec (rdb_ops H enc dec (fst x)) (run h) (snd x)).
  Proof. unfold rdb_run. now rewrite fold_left_app. Qed.

  (** All values written survive the serialiser. *)
  Definition good_history (h : list (renv * op)) : Prop := Forall (fun x => good_op (snd x)) h.
  (** No [index_property] call failed. *)
  Definition steady (h : list (renv * op)) : Prop :=
    Forall (fun x => forall n, snd x = OIndexProperty n -> wok (fst x) = true) h.
  Definition no_bulk (h : list (renv * op)) : Prop :=
    Forall (fun x => forall items, snd x <> OBulkInsert items) h.

  Lemma run_rep h : good_history h ->
    exists L, rep (r_db (run h)) L /\
      (steady h -> metaok L (r_indexed (run h))) /\
      (no_bulk h -> outbound_exist (gabs L (r_indexed (run h)))).
  Proof.
    induction h as [|x h IH] using rev_ind; intros G.
    - exists l_empty. conj.
      + apply rep_db_empty.
      + intros _. reflexivity.
      + intros _ e He. unfold is_edge in He. cbn in He. discriminate.
    - apply Forall_app in G as [G Gx]. apply Forall_inv in Gx. destruct (IH G) as (L & R & M & O).
      rewrite rdb_run_snoc. destruct (exec (rdb_ops H enc dec (fst x)) (run h) (snd x)) as [r s'] eqn:E. cbn [snd].
      destruct (rdb_exec_any (fst x) (run h) (snd x) R Gx E) as [(a & Sh & (L' & R' & GA & _ & MA) & _)|(W & -> & D & I)].
      + exists L'. conj; auto.
        * intros St. apply Forall_app in St as [St _]. unfold metaok in *. destruct MA as [[-> ->]|MA]; [exact (M St)|exact MA].
        * intros NB. apply Forall_app in NB as [NB NBx]. apply Forall_inv in NBx. rewrite GA.
          apply outbound_apply; [|auto]. intros items ->. inversion Sh as [| | | | | | | | | |? Eq| | | | | | |]; subst.
          eapply NBx. symmetry. eassumption.
      + exists L. rewrite D. conj; auto.
        * intros St. apply Forall_app in St as [St Stx]. apply Forall_inv in Stx.
          destruct I as [->|(n & En & _)]; [auto|]. rewrite (Stx n En) in W. discriminate.
        * intros NB. apply Forall_app in NB as [NB _]. specialize (O NB).
          destruct I as [->|(n & _ & _ & ->)]; exact O.
  Qed.

  (** Histories in which the index stays exact. *)
  Definition rtidy_history (h : list (renv * op)) : Prop :=
    good_history h /\ steady h /\ forall h1 x h2, h = h1 ++ x :: h2 -> rtidy_op (rgof (run h1)) (snd x).

  Lemma rtidy_prefix h x : rtidy_history (h ++ [x]) -> rtidy_history h.
  Proof.
    intros (G & S & T). unfold rtidy_history, good_history, steady in *. apply Forall_app in G as [G _], S as [S _]. conj; auto.
    intros h1 y h2 ->. apply (T h1 y (h2 ++ [x])). now rewrite <- app_assoc.
  Qed.

  Lemma run_rtidy h : rtidy_history h ->
    exists L, rep (r_db (run h)) L /\ exact H L (r_indexed (run h)) /\
      no_orphans (gabs L (r_indexed (run h))) /\ metaok L (r_indexed (run h)).
  Proof.
    induction h as [|x h IH] using rev_ind; intros T.
    - exists l_empty. conj.
      + apply rep_db_empty.
      + split; intros n k i; cbn; (split; [discriminate|intros [? _]; discriminate]).
      + apply no_orphans_empty.
      + reflexivity.
    - destruct (IH (rtidy_prefix h x T)) as (L & R & X & NO & M). destruct T as (G & S & T).
      specialize (T h x [] eq_refl). rewrite (rgof_rep (run h) R) in T.
      apply Forall_app in G as [G Gx]. apply Forall_inv in Gx. apply Forall_app in S as [S Sx]. apply Forall_inv in Sx.
      rewrite rdb_run_snoc. destruct (exec (rdb_ops H enc dec (fst x)) (run h) (snd x)) as [r s'] eqn:E. cbn [snd].
      destruct (@rdb_exec_spec H enc dec (fst x) (run h) L (snd x) r s' R Gx) with (2 := E)
        as [(a & HR & (L' & R' & GA & XA & MA))|(W & -> & D & I)].
      + intros q n _ _ Hi. eapply exact_rix; eauto.
      + exists L'. conj; auto.
        * apply XA; [|assumption]. destruct a; cbn; auto.
          inversion HR; subst. match goal with Eq : _ = snd x |- _ => rewrite <- Eq in T end. apply T.
        * rewrite GA. eapply no_orphans_rstep; [exact T| |exact NO]. exists a. eauto.
        * unfold metaok in *. destruct MA as [[-> ->]|MA]; assumption.
      + exists L. rewrite D. destruct I as [->|(n & En & _)]; [auto|]. rewrite (Sx n En) in W. discriminate.
  Qed.

  (** One call after a tidy history. *)
  Theorem rdb_tidy_step h env o r s' :
    rtidy_history h -> good_op o ->
    exec (rdb_ops H enc dec env) (run h) o = (r, s') ->
    r_step slt (hm H) (rgof (run h)) o r (rgof s') \/ io_failed env (run h) o r s'.
  Proof.
    intros T G E. destruct (run_rtidy T) as (L & R & X & NO & _).
    destruct (@rdb_exec_spec H enc dec env (run h) L o r s' R G) with (2 := E)
      as [(a & HR & (L' & R' & GA & _))|F]; [|left|right; assumption].
    - intros q n _ _ Hi. eapply exact_rix; eauto.
    - exists a. rewrite (rgof_rep (run h) R), (rgof_rep s' R'). auto.
  Qed.

  (** One call whose query consults no index, after any history. *)
  Theorem rdb_plain_step h env o r s' :
    good_history h -> good_op o ->
    (forall q, op_query o = Some q -> index_names q = []) ->
    exec (rdb_ops H enc dec env) (run h) o = (r, s') ->
    r_step slt (hm H) (rgof (run h)) o r (rgof s') \/ io_failed env (run h) o r s'.
  Proof.
    intros Gh G HQ E. destruct (run_rep Gh) as (L & R & _).
    destruct (@rdb_exec_spec H enc dec env (run h) L o r s' R G) with (2 := E)
      as [(a & HR & (L' & R' & GA & _))|F]; [|left|right; assumption].
    - intros q n Hq Hin. rewrite (HQ q Hq) in Hin. destruct Hin.
    - exists a. rewrite (rgof_rep (run h) R), (rgof_rep s' R'). auto.
  Qed.

  (** Any call after any history. *)
  Theorem rdb_any_step h env o r s' :
    good_history h -> good_op o ->
    exec (rdb_ops H enc dec env) (run h) o = (r, s') ->
    (exists a, shaped o a /\ rgof s' = r_apply (rgof (run h)) a /\ plain_result a r) \/ io_failed env (run h) o r s'.
  Proof.
    intros Gh G E. destruct (run_rep Gh) as (L & R & _).
    destruct (rdb_exec_any env (run h) o R G E) as [(a & Sh & (L' & R' & GA & _) & P)|F]; [left|right; assumption].
    exists a. rewrite (rgof_rep (run h) R), (rgof_rep s' R'). auto.
  Qed.
End Hist.
