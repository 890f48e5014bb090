(** * What concurrent calls on the RocksDB datastore preserve *)
From Verif Require Import Base OMap Json Types Util Db Rdb Spec QueryFacts SpecFacts JsonFacts UtilFacts MemFacts MemRefine
  KeyFacts RdbSpec RdbRep RdbWrite RdbPut Conc RdbProg RdbConc.

Set Implicit Arguments.

Section Inv.
  Variable H : list byte -> N.
  Variable enc : json -> bytes.
  Variable dec : bytes -> option json.
  Notation rep := (rep H enc dec).
  Notation lossless := (lossless enc dec).

  (** ** The edge tables, whatever the codec *)
  Definition mirrored (d : db) : Prop :=
    forall e, mem (edge_key H (reversed e)) (d_reversed d) = mem (edge_key H e) (d_edges d).

  Lemma edge_key_eqb e f : eqb (edge_key H e) (edge_key H f) = eqb e f.
  Proof.
    destruct (eqb e f) eqn:E; [apply eqb_eq in E; subst; apply eqb_refl|].
    destruct (eqb (edge_key H e) (edge_key H f)) eqn:F; [|reflexivity].
    apply eqb_eq, edge_key_inj in F. subst. now rewrite eqb_refl in E.
  Qed.
  Lemma reversed_eqb2 e f : eqb (reversed e) (reversed f) = eqb e f.
  Proof. now rewrite reversed_eqb, reversed_invol. Qed.

  Lemma mirrored_piece P ix b d : piece H enc P ix b -> mirrored d -> mirrored (apply_batch b d).
  Proof.
    intros Pc M. destruct Pc; try (intros f; exact (M f)).
    - intros f. cbn. rewrite !mem_set, !edge_key_eqb, reversed_eqb2, (M f). reflexivity.
    - intros f. cbn. rewrite !mem_del, !edge_key_eqb, reversed_eqb2, (M f). reflexivity.
    - destruct o; intros f; exact (M f).
    - destruct o; intros f; exact (M f).
  Qed.

  (** ** Representation *)
  Definition represented (d : db) (_ : oset ident) : Prop := exists L, rep d L.

  Definition rm_v (L : lstate) (id : uuid) : lstate :=
    LState (del id (l_v L)) (l_e L) (l_r L) (l_vp L) (l_ep L) (l_vv L) (l_ev L) (l_m L).
  Definition rm_e (L : lstate) (e : edge) : lstate :=
    LState (l_v L) (del e (l_e L)) (del (reversed e) (l_r L)) (l_vp L) (l_ep L) (l_vv L) (l_ev L) (l_m L).

  Lemma rep_del_v d L id : rep d L -> rep (apply_wop d (Del CFV (vertex_key H id))) (rm_v L id).
  Proof. intros []. split; cbn; try assumption. apply rep_del; [apply vertex_key_inj|assumption]. Qed.
  Lemma rep_put_e d L e : rep d L -> rep (apply_batch [Put CFE (edge_key H e) []; Put CFR (edge_key H (reversed e)) []] d) (up_e L e).
  Proof.
    intros []. split; cbn; try assumption.
    - apply (rep_set (vf := unitf)) with (v := tt); [apply edge_key_inj|assumption].
    - apply (rep_set (vf := unitf)) with (v := tt); [apply edge_key_inj|assumption].
    - intros f. rewrite !mem_add, rp_mirror, reversed_eqb. reflexivity.
  Qed.
  Lemma rep_del_e d L e : rep d L -> rep (apply_batch [Del CFE (edge_key H e); Del CFR (edge_key H (reversed e))] d) (rm_e L e).
  Proof.
    intros []. split; cbn; try assumption.
    - apply rep_del; [apply edge_key_inj|assumption].
    - apply rep_del; [apply edge_key_inj|assumption].
    - intros f. rewrite !mem_del, rp_mirror, reversed_eqb. reflexivity.
  Qed.

  (** What a piece does to a represented database. *)
  Inductive moved (ix : oset ident) (L : lstate) : lstate -> Prop :=
  | mv_v id t : moved ix L (up_v L id t)
  | mv_nv id : moved ix L (rm_v L id)
  | mv_e e : moved ix L (up_e L e)
  | mv_ne e : moved ix L (rm_e L e)
  | mv_nvp id n : moved ix L (rm_vp L (id, n))
  | mv_nvpi id n x : moved ix L (rm_vp (up_vv L (del (n, (hash8 H x, id)) (l_vv L))) (id, n))
  | mv_vp id n v : mem n ix = false -> moved ix L (up_vp L (id, n) v)
  | mv_vpi id n v : moved ix L (up_vv (up_vp L (id, n) v) (add (n, (hash8 H v, id)) (l_vv L)))
  | mv_nep e n : moved ix L (rm_ep L (e, n))
  | mv_nepi e n x : moved ix L (rm_ep (up_ev L (del (n, (hash8 H x, e)) (l_ev L))) (e, n))
  | mv_ep e n v : mem n ix = false -> moved ix L (up_ep L (e, n) v)
  | mv_epi e n v : moved ix L (up_ev (up_ep L (e, n) v) (add (n, (hash8 H v, e)) (l_ev L)))
  | mv_vi n v id : moved ix L (up_vv L (add (n, (hash8 H v, id)) (l_vv L)))
  | mv_ei n v e : moved ix L (up_ev L (add (n, (hash8 H v, e)) (l_ev L)))
  | mv_m l : moved ix L (up_m L l).

  Lemma rep_piece ix b d L : piece H enc lossless ix b -> rep d L -> exists L', rep (apply_batch b d) L' /\ moved ix L L'.
  Proof.
    intros Pc R. destruct Pc; try destruct o; cbn [unindex_v unindex_e app].
    - eexists; split; [exact (rep_put_v id t R)|constructor].
    - eexists; split; [exact (rep_del_v id R)|constructor].
    - eexists; split; [exact (rep_put_e e R)|constructor].
    - eexists; split; [exact (rep_del_e e R)|constructor].
    - eexists; split; [exact (rep_del_vp id n (rep_del_vv n j id R))|constructor].
    - eexists; split; [exact (rep_del_vp id n R)|constructor].
    - eexists; split; [exact (rep_put_vp id n H1 R)|now constructor].
    - eexists; split; [exact (rep_put_vv n v id (rep_put_vp id n H0 R))|exact (mv_vpi ix L id n v)].
    - eexists; split; [exact (rep_del_ep e n (rep_del_ev n j e R))|constructor].
    - eexists; split; [exact (rep_del_ep e n R)|constructor].
    - eexists; split; [exact (rep_put_ep e n H1 R)|now constructor].
    - eexists; split; [exact (rep_put_ev n v e (rep_put_ep e n H0 R))|exact (mv_epi ix L e n v)].
    - eexists; split; [exact (rep_put_vv n v id R)|constructor].
    - eexists; split; [exact (rep_put_ev n v e R)|constructor].
    - eexists; split; [exact (rep_put_m l R)|constructor].
  Qed.

  Lemma fine_Ok {A} okerr okpanic (l : list A) : Forall (fine okerr okpanic) (map Ok l).
  Proof. apply Forall_forall. intros x Hx. apply in_map_iff in Hx as (y & <- & _). exact I. Qed.

  Lemma rep_reads_fine okerr d L : rep d L -> reads_fine H dec okerr False d.
  Proof.
    intros R. set (s := RState d empty []).
    assert (RdbRep.rep H enc dec (r_db s) L) as R' by exact R.
    split; intros.
    - destruct (vertices_from_rep s R' id) as (l & E & _). change (r_db s) with d in E. rewrite E. apply fine_Ok.
    - pose proof (vertex_get_rep s R' id) as E. change (r_db s) with d in E. rewrite E. exact I.
    - destruct (edges_from_rep e (rp_e R)) as (l & E & _). rewrite E. apply fine_Ok.
    - destruct (edges_from_rep e (rp_r R)) as (l & E & _). rewrite E. apply fine_Ok.
    - destruct (edges_all_rep s R') as (l & E & _). change (r_db s) with d in E. rewrite E. apply fine_Ok.
    - destruct (edges_for_root_rep id (rp_e R)) as (l & E & _). rewrite E. apply fine_Ok.
    - destruct (edges_for_root_rep id (rp_r R)) as (l & E & _). rewrite E. apply fine_Ok.
    - destruct (edges_for_root_rep id (rp_e R)) as (l & E & Hl). rewrite E in H0. apply in_map_iff in H0 as (y & Ey & Hy).
      inversion Ey; subst. left. now apply Hl.
    - destruct (edges_for_root_rep id (rp_r R)) as (l & E & Hl). rewrite E in H0. apply in_map_iff in H0 as (y & Ey & Hy).
      inversion Ey; subst. left. now apply Hl.
    - pose proof (vprop_get_rep s R' id n) as E. change (r_db s) with d in E. rewrite E. exact I.
    - pose proof (eprop_get_rep s R' e n) as E. change (r_db s) with d in E. rewrite E. exact I.
    - destruct (vprops_for_owner_rep s R' id) as (l & E & _). change (r_db s) with d in E. rewrite E. apply fine_Ok.
    - destruct (eprops_for_owner_rep s R' e) as (l & E & _). change (r_db s) with d in E. rewrite E. apply fine_Ok.
    - destruct (vvalues_for_name_rep s R' n) as (l & E & _). change (r_db s) with d in E. rewrite E. apply fine_Ok.
    - destruct (vvalues_for_value_rep s R' n v) as (l & E & _). change (r_db s) with d in E. rewrite E. apply fine_Ok.
    - destruct (evalues_for_name_rep s R' n) as (l & E & _). change (r_db s) with d in E. rewrite E. apply fine_Ok.
    - destruct (evalues_for_value_rep s R' n v) as (l & E & _). change (r_db s) with d in E. rewrite E. apply fine_Ok.
  Qed.

  (** ** Index entries are never missing *)
  Definition covered (n0 : ident) (L : lstate) : Prop :=
    (forall id x, get (id, n0) (l_vp L) = Some x -> mem (n0, (hash8 H x, id)) (l_vv L) = true) /\
    (forall e x, get (e, n0) (l_ep L) = Some x -> mem (n0, (hash8 H x, e)) (l_ev L) = true).

  Definition complete (n0 : ident) (d : db) (ix : oset ident) : Prop :=
    mem n0 ix = true /\ exists L, rep d L /\ covered n0 L.

  Lemma covered_moved n0 ix L L' : mem n0 ix = true -> moved ix L L' -> covered n0 L -> covered n0 L'.
  Proof.
    intros M Mv [Cv Ce]. destruct Mv; split; cbn; intros i y Hy; try (now apply Cv); try (now apply Ce).
    - apply Cv. rewrite get_del in Hy. now destruct (eqb (i, n0) (id, n)).
    - rewrite get_del in Hy. destruct (eqb (i, n0) (id, n)) eqn:E; [discriminate|].
      rewrite mem_del, (Cv _ _ Hy). destruct (eqb (n0, (hash8 H y, i)) (n, (hash8 H x, id))) eqn:F; [|reflexivity].
      apply eqb_eq in F. inversion F; subst. now rewrite eqb_refl in E.
    - rewrite get_set in Hy. destruct (eqb (i, n0) (id, n)) eqn:E; [|now apply Cv].
      apply eqb_eq in E. inversion E; subst. congruence.
    - rewrite mem_add. rewrite get_set in Hy. destruct (eqb (i, n0) (id, n)) eqn:E.
      + apply eqb_eq in E. inversion E; subst. inversion Hy; subst. now rewrite eqb_refl.
      + rewrite (Cv _ _ Hy). apply Bool.orb_true_r.
    - apply Ce. rewrite get_del in Hy. now destruct (eqb (i, n0) (e, n)).
    - rewrite get_del in Hy. destruct (eqb (i, n0) (e, n)) eqn:E; [discriminate|].
      rewrite mem_del, (Ce _ _ Hy). destruct (eqb (n0, (hash8 H y, i)) (n, (hash8 H x, e))) eqn:F; [|reflexivity].
      apply eqb_eq in F. inversion F; subst. now rewrite eqb_refl in E.
    - rewrite get_set in Hy. destruct (eqb (i, n0) (e, n)) eqn:E; [|now apply Ce].
      apply eqb_eq in E. inversion E; subst. congruence.
    - rewrite mem_add. rewrite get_set in Hy. destruct (eqb (i, n0) (e, n)) eqn:E.
      + apply eqb_eq in E. inversion E; subst. inversion Hy; subst. now rewrite eqb_refl.
      + rewrite (Ce _ _ Hy). apply Bool.orb_true_r.
    - rewrite mem_add, (Cv _ _ Hy). apply Bool.orb_true_r.
    - rewrite mem_add, (Ce _ _ Hy). apply Bool.orb_true_r.
  Qed.

  Lemma complete_piece n0 ix b d : piece H enc lossless ix b -> complete n0 d ix -> complete n0 (apply_batch b d) ix.
  Proof.
    intros Pc (M & L & R & C). destruct (rep_piece Pc R) as (L' & R' & Mv). split; [exact M|].
    exists L'. split; [exact R'|]. eapply covered_moved; eauto.
  Qed.
End Inv.
