(** * RocksDB column families represent a logical state; reads of that state. *)
From Verif Require Import Base OMap Json Types Util Db Rdb Spec QueryFacts SpecFacts JsonFacts UtilFacts MemFacts MemRefine KeyFacts.

Set Implicit Arguments.

(** ** A column family represents a map *)

Section Table.
  Context {K V : Type} {O : Ord K}.
  Variable kf : K -> bytes.
  Variable vf : V -> bytes.
  Hypothesis kf_inj : forall a b, kf a = kf b -> a = b.

  Definition table_rep (c : cf) (t : omap K V) : Prop :=
    (forall k, get (kf k) c = option_map vf (get k t)) /\
    (forall b v, get b c = Some v -> exists k, b = kf k).

  Lemma rep_empty : table_rep empty empty.
  Proof. split; [reflexivity|]. intros b v H. rewrite get_empty in H. discriminate. Qed.

  Lemma rep_mem c t k : table_rep c t -> mem (kf k) c = mem k t.
  Proof. intros [H _]. unfold mem. rewrite H. now destruct (get k t). Qed.

  Lemma rep_set c t k v : table_rep c t -> table_rep (set (kf k) (vf v) c) (set k v t).
  Proof.
    intros [H1 H2]. split.
    - intros k'. rewrite !get_set. destruct (eqb k' k) eqn:E.
      + apply eqb_eq in E. subst. now rewrite eqb_refl.
      + apply eqb_neq in E. destruct (eqb (kf k') (kf k)) eqn:F; [|apply H1].
        apply eqb_eq in F. apply kf_inj in F. contradiction.
    - intros b w. rewrite get_set. destruct (eqb b (kf k)) eqn:E; [|apply H2].
      apply eqb_eq in E. eauto.
  Qed.

  Lemma rep_del c t k : table_rep c t -> table_rep (del (kf k) c) (del k t).
  Proof.
    intros [H1 H2]. split.
    - intros k'. rewrite !get_del. destruct (eqb k' k) eqn:E.
      + apply eqb_eq in E. subst. now rewrite eqb_refl.
      + apply eqb_neq in E. destruct (eqb (kf k') (kf k)) eqn:F; [|apply H1].
        apply eqb_eq in F. apply kf_inj in F. contradiction.
    - intros b w. rewrite get_del. destruct (eqb b (kf k)) eqn:E; [discriminate|apply H2].
  Qed.

  (** Removing the keys of a set of entries. *)
  Lemma rep_filt c c' t (f : K -> bool) (D : bytes -> Prop) :
    table_rep c t ->
    (forall k, D (kf k) <-> f k = true) ->
    (forall b, D b -> get b c' = None) -> (forall b, ~ D b -> get b c' = get b c) ->
    table_rep c' (filt (fun kv => negb (f (fst kv))) t).
  Proof.
    intros [H1 H2] Hf Hd Hn. split.
    - intros k. rewrite (get_filt_key (fun k => negb (f k))). destruct (f k) eqn:E; cbn.
      + apply Hd, Hf, E.
      + rewrite Hn, H1; [reflexivity|]. rewrite Hf, E. discriminate.
    - intros b v Hb. destruct (get b c) as [w|] eqn:E; [eauto|].
      exfalso. assert (~ D b) as ND by (intros D1; apply Hd in D1; congruence).
      rewrite (Hn b ND) in Hb. congruence.
  Qed.

  (** Reading a sorted part of the column family. *)
  Lemma rep_read c t (l : list (bytes * bytes)) :
    table_rep c t -> StronglySorted (klt (V := bytes)) l ->
    (forall b v, In (b, v) l -> get b c = Some v) ->
    exists ks, l = map (fun kv => (kf (fst kv), vf (snd kv))) ks /\
      StronglySorted (fun a b => lt (kf (fst a)) (kf (fst b))) ks /\
      (forall k v, In (k, v) ks <-> get k t = Some v /\ exists w, In (kf k, w) l).
  Proof.
    intros [H1 H2] Hs Hl.
    assert (exists ks, l = map (fun kv => (kf (fst kv), vf (snd kv))) ks /\
                       forall k v, In (k, v) ks -> get k t = Some v) as (ks & -> & Hks).
    { clear Hs. induction l as [|[b v] l IH]; [exists []; split; [reflexivity|intros ? ? []]|].
      destruct IH as (ks & -> & Hks); [intros; apply Hl; now right|].
      pose proof (Hl b v (or_introl eq_refl)) as Hb. destruct (H2 b v Hb) as (k & ->).
      rewrite H1 in Hb. destruct (get k t) as [x|] eqn:E; [|discriminate]. inversion Hb; subst.
      exists ((k, x) :: ks). split; [reflexivity|]. intros k' v' [E'|Hin]; [inversion E'; subst; assumption|auto]. }
    exists ks. split; [reflexivity|]. split.
    - clear -Hs. induction ks as [|[k v] ks IH]; cbn in Hs; [constructor|].
      inversion Hs as [|? ? Hs' Hf]; subst. constructor; [auto|].
      rewrite Forall_forall in *. intros [k' v'] Hin. apply (Hf (kf k', vf v')).
      apply in_map_iff. exists (k', v'). auto.
    - intros k v. split.
      + intros Hin. split; [auto|]. exists (vf v). apply in_map_iff. exists (k, v). auto.
      + intros [Hg (w & Hw)]. apply in_map_iff in Hw as ([k' v'] & E & Hin). inversion E as [[E1 E2]].
        apply kf_inj in E1. subst. pose proof (Hks _ _ Hin). congruence.
  Qed.

  Lemma map_dec {A} (df : bytes * bytes -> outcome A) (g : K * V -> A) ks :
    (forall k v, In (k, v) ks -> df (kf k, vf v) = Ok (g (k, v))) ->
    map df (map (fun kv => (kf (fst kv), vf (snd kv))) ks) = map Ok (map g ks).
  Proof.
    intros H. rewrite !map_map. apply map_ext_in. intros [k v] Hin. cbn [fst snd]. auto.
  Qed.

  (** A decoded prefix scan and a decoded range scan. *)
  Lemma rep_scan {A} (df : bytes * bytes -> outcome A) (g : K * V -> A) c t p :
    table_rep c t ->
    (forall k v, get k t = Some v -> (exists r, kf k = p ++ r) -> df (kf k, vf v) = Ok (g (k, v))) ->
    exists ks, map df (scan_prefix c p p) = map Ok (map g ks) /\
      StronglySorted (fun a b => lt (kf (fst a)) (kf (fst b))) ks /\
      (forall k v, In (k, v) ks <-> get k t = Some v /\ exists r, kf k = p ++ r).
  Proof.
    intros R Hd.
    destruct (@rep_read c t (scan_prefix c p p) R (scan_prefix_sorted c p p)) as (ks & E & Hs & Hin).
    { intros b v H. now apply scan_prefix_In in H. }
    assert (forall k v, In (k, v) ks <-> get k t = Some v /\ exists r, kf k = p ++ r) as Hk.
    { intros k v. rewrite Hin. split.
      - intros [Hg (w & Hw)]. apply scan_prefix_In in Hw as [_ Hw]. auto.
      - intros [Hg Hr]. split; [assumption|]. exists (vf v). apply scan_prefix_In. split; [|assumption].
        rewrite (proj1 R), Hg. reflexivity. }
    exists ks. split; [|split; assumption].
    rewrite E. apply map_dec. intros k v H. apply Hk in H as [H1 H2]. auto.
  Qed.

  Lemma rep_from {A} (df : bytes * bytes -> outcome A) (g : K * V -> A) c t p :
    table_rep c t ->
    (forall k v, get k t = Some v -> df (kf k, vf v) = Ok (g (k, v))) ->
    exists ks, map df (from p c) = map Ok (map g ks) /\
      StronglySorted (fun a b => lt (kf (fst a)) (kf (fst b))) ks /\
      (forall k v, In (k, v) ks <-> get k t = Some v /\ ~ lt (kf k) p).
  Proof.
    intros R Hd.
    destruct (@rep_read c t (from p c) R (from_sorted p c)) as (ks & E & Hs & Hin).
    { intros b v H. now apply from_In in H. }
    assert (forall k v, In (k, v) ks <-> get k t = Some v /\ ~ lt (kf k) p) as Hk.
    { intros k v. rewrite Hin. split.
      - intros [Hg (w & Hw)]. apply from_In in Hw as [_ Hw]. auto.
      - intros [Hg Hr]. split; [assumption|]. exists (vf v). apply from_In. split; [|assumption].
        rewrite (proj1 R), Hg. reflexivity. }
    exists ks. split; [|split; assumption].
    rewrite E. apply map_dec. intros k v H. apply Hk in H as [H1 H2]. auto.
  Qed.

  Lemma rep_elems {A} (df : bytes * bytes -> outcome A) (g : K * V -> A) c t :
    table_rep c t ->
    (forall k v, get k t = Some v -> df (kf k, vf v) = Ok (g (k, v))) ->
    exists ks, map df (elems c) = map Ok (map g ks) /\
      StronglySorted (fun a b => lt (kf (fst a)) (kf (fst b))) ks /\
      (forall k v, In (k, v) ks <-> get k t = Some v).
  Proof.
    intros R Hd.
    destruct (@rep_read c t (elems c) R (elems_ssorted c)) as (ks & E & Hs & Hin).
    { intros b v H. now apply get_In in H. }
    assert (forall k v, In (k, v) ks <-> get k t = Some v) as Hk.
    { intros k v. rewrite Hin. split; [tauto|].
      intros Hg. split; [assumption|]. exists (vf v). apply get_In. rewrite (proj1 R), Hg. reflexivity. }
    exists ks. split; [|split; assumption].
    rewrite E. apply map_dec. intros k v H. apply Hk in H. auto.
  Qed.
End Table.

Definition unitf (_ : unit) : bytes := [].

(** ** The logical state *)

Record lstate := LState {
  l_v : omap uuid ident;
  l_e : oset edge;
  l_r : oset edge;
  l_vp : omap (uuid * ident) json;
  l_ep : omap (edge * ident) json;
  l_vv : oset (ident * (h8 * uuid));
  l_ev : oset (ident * (h8 * edge));
  l_m : option (list ident) }.

Definition l_empty : lstate := LState empty empty empty empty empty empty empty None.

(** The graph held by a logical state and the set of indexed names. *)
Definition gabs (L : lstate) (ix : oset ident) : graph := Graph (l_v L) (l_e L) (l_vp L) (l_ep L) ix.

Section Rep.
  Variable H : list byte -> N.
  Variable enc : json -> bytes.
  Variable dec : bytes -> option json.

  Definition lossless (v : json) : Prop := dec (enc v) = Some v.

  Record rep (d : db) (L : lstate) : Prop := {
    rp_v : table_rep (vertex_key H) ik (d_vertices d) (l_v L);
    rp_e : table_rep (edge_key H) unitf (d_edges d) (l_e L);
    rp_r : table_rep (edge_key H) unitf (d_reversed d) (l_r L);
    rp_vp : table_rep (vpk H) enc (d_vprops d) (l_vp L);
    rp_ep : table_rep (epk H) enc (d_eprops d) (l_ep L);
    rp_vv : table_rep vvk unitf (d_vvalues d) (l_vv L);
    rp_ev : table_rep (evk H) unitf (d_evalues d) (l_ev L);
    rp_m : get meta_key (d_meta d) = option_map bin_idents (l_m L);
    rp_vgood : forall k v, get k (l_vp L) = Some v -> lossless v;
    rp_egood : forall k v, get k (l_ep L) = Some v -> lossless v;
    rp_mirror : forall e, mem e (l_r L) = mem (reversed e) (l_e L) }.

  Lemma rep_db_empty : rep db_empty l_empty.
  Proof. split; cbn; try apply rep_empty; try reflexivity; intros k v; rewrite get_empty; discriminate. Qed.

  (** When a stored value answers a value query: equal hash. *)
  Definition hm (x v : json) : Prop := hash8 H x = hash8 H v.

  (** The index entries of [n] are exactly the stored properties [n]. *)
  Definition vexact (L : lstate) (n : ident) : Prop := forall h id,
    mem (n, (h, id)) (l_vv L) = true <-> exists x, get (id, n) (l_vp L) = Some x /\ h = hash8 H x.
  Definition eexact (L : lstate) (n : ident) : Prop := forall h e,
    mem (n, (h, e)) (l_ev L) = true <-> exists x, get (e, n) (l_ep L) = Some x /\ h = hash8 H x.
  Definition rix_ok (L : lstate) (n : ident) : Prop :=
    vexact L n /\ eexact L n /\ forall e x, get (e, n) (l_ep L) = Some x -> mem e (l_e L) = true.

  Section Reads.
    Variable s : rstate.
    Variable L : lstate.
    Hypothesis R : rep (r_db s) L.
    Notation d := (r_db s).
    Notation g := (gabs L (r_indexed s)).

    Lemma vertex_exists_rep id : vertex_exists H d id = mem id (l_v L).
    Proof. apply (rep_mem _ (rp_v R)). Qed.
    Lemma edge_contains_rep e : edge_contains H d e = mem e (l_e L).
    Proof. apply (rep_mem _ (rp_e R)). Qed.
    Lemma vertex_get_rep id : vertex_get H d id = Ok (get id (l_v L)).
    Proof.
      unfold vertex_get. rewrite (proj1 (rp_v R)). destruct (get id (l_v L)) as [t|]; [|reflexivity]. cbn [option_map].
      rewrite <- (app_nil_r (ik t)), read_identifier_app. reflexivity.
    Qed.
    Lemma vprop_get_rep id n : vprop_get H dec d id n = Ok (get (id, n) (l_vp L)).
    Proof.
      unfold vprop_get. change (vprop_key H id n) with (vpk H (id, n)). rewrite (proj1 (rp_vp R)).
      destruct (get (id, n) (l_vp L)) as [x|] eqn:E; [|reflexivity]. cbn [option_map]. unfold from_slice.
      rewrite (rp_vgood R _ E). reflexivity.
    Qed.
    Lemma eprop_get_rep e n : eprop_get H dec d e n = Ok (get (e, n) (l_ep L)).
    Proof.
      unfold eprop_get. change (eprop_key H e n) with (epk H (e, n)). rewrite (proj1 (rp_ep R)).
      destruct (get (e, n) (l_ep L)) as [x|] eqn:E; [|reflexivity]. cbn [option_map]. unfold from_slice.
      rewrite (rp_egood R _ E). reflexivity.
    Qed.

    Lemma vertices_from_rep id : exists l, vertices_from H d id = map Ok l /\
      listing vlt (fun v => is_vertex g v /\ ~ lt (vid v) id) l.
    Proof.
      destruct (rep_from (@vertex_key_inj H) (dec_vertex) (fun kv => Vertex (fst kv) (snd kv)) (vertex_key H id) (rp_v R))
        as (ks & E & Hs & Hin).
      { intros k v _. rewrite <- (prefix_ident H v). apply dec_vertex_ok. }
      eexists. split; [exact E|]. split.
      - eapply sorted_map; [|exact Hs]. intros [k t] [k' t']. cbn [fst snd]. unfold vlt. cbn [vid]. apply vertex_key_lt.
      - intros [k t]. rewrite in_map_iff. unfold is_vertex. cbn [vid vt gabs gv]. split.
        + intros ([k' t'] & Ek & Hk). inversion Ek; subst. apply Hin in Hk. now rewrite vertex_key_lt in Hk.
        + intros [Hg Hl]. exists (k, t). split; [reflexivity|]. apply Hin. now rewrite vertex_key_lt.
    Qed.

    Lemma edges_from_rep (c : cf) (t : oset edge) lo : table_rep (edge_key H) unitf c t ->
      exists l, edges_from H c lo = map Ok l /\ listing (elt slt) (fun e => mem e t = true /\ ~ elt slt e lo) l.
    Proof.
      intros Rt. destruct (rep_from (@edge_key_inj H) dec_edge fst (edge_key H lo) Rt) as (ks & E & Hs & Hin).
      { intros k v _. apply dec_edge_ok. }
      eexists. split; [exact E|]. split.
      - eapply sorted_map; [|exact Hs]. intros [k []] [k' []]. cbn [fst]. apply edge_key_lt.
      - intros e. rewrite in_map_iff. rewrite <- get_oset, <- edge_key_lt with (H := H). split.
        + intros ([k' []] & <- & Hk). now apply Hin.
        + intros Hg. exists (e, tt). split; [reflexivity|]. now apply Hin.
    Qed.

    Lemma edges_all_rep : exists l, edges_all d = map Ok l /\ listing (elt slt) (is_edge g) l.
    Proof.
      destruct (rep_elems (@edge_key_inj H) dec_edge fst (rp_e R)) as (ks & E & Hs & Hin).
      { intros k v _. apply dec_edge_ok. }
      eexists. split; [exact E|]. split.
      - eapply sorted_map; [|exact Hs]. intros [k []] [k' []]. cbn [fst]. apply edge_key_lt.
      - intros e. rewrite in_map_iff. unfold is_edge. cbn [gabs ge]. rewrite <- get_oset. split.
        + intros ([k' []] & <- & Hk). now apply Hin.
        + intros Hg. exists (e, tt). split; [reflexivity|]. now apply Hin.
    Qed.

    Lemma edges_for_root_rep (c : cf) (t : oset edge) id : table_rep (edge_key H) unitf c t ->
      exists l, edges_for_root H c id = map Ok l /\ forall e, In e l <-> mem e t = true /\ eout e = id.
    Proof.
      intros Rt. unfold edges_for_root. rewrite prefix_uuid.
      destruct (rep_scan (@edge_key_inj H) dec_edge fst (ub id) Rt) as (ks & E & Hs & Hin).
      { intros k v _ _. apply dec_edge_ok. }
      eexists. split; [exact E|]. intros e. rewrite in_map_iff, <- get_oset. split.
      - intros ([k' []] & <- & Hk). apply Hin in Hk as [Hk [r Hr]]. split; [assumption|].
        cbn [fst]. rewrite edge_key_eq in Hr. now apply ub_prefix_free in Hr as [Hr _].
      - intros [Hg <-]. exists (e, tt). split; [reflexivity|]. apply Hin. split; [assumption|].
        rewrite edge_key_eq. eauto.
    Qed.

    Lemma vprops_for_owner_rep id : exists l, vprops_for_owner H dec d id = map Ok (map (fun a => (id, fst a, snd a)) l) /\
      listing (fun a b => lt (fst a) (fst b)) (fun a : ident * json => get (id, fst a) (l_vp L) = Some (snd a)) l.
    Proof.
      unfold vprops_for_owner. rewrite prefix_uuid.
      destruct (rep_scan (@vpk_inj H) (dec_vprop dec id) (fun kv => (id, snd (fst kv), snd kv)) (ub id) (rp_vp R)) as (ks & E & Hs & Hin).
      { intros [i n] v Hg [r Hr]. unfold vpk in Hr. cbn [fst snd] in *. rewrite vprop_key_eq in Hr.
        apply ub_prefix_free in Hr as [-> _]. apply dec_vprop_ok. now apply (rp_vgood R _ Hg). }
      exists (map (fun kv => (snd (fst kv), snd kv)) ks). split; [rewrite E, !map_map; reflexivity|].
      assert (forall kv, In kv ks -> fst (fst kv) = id) as Ho.
      { intros [[i n] v] Hk. apply Hin in Hk as [_ [r Hr]]. unfold vpk in Hr. cbn [fst snd] in *.
        rewrite vprop_key_eq in Hr. now apply ub_prefix_free in Hr as [-> _]. }
      split.
      - clear -Hs Ho. induction Hs as [|[[i n] v] l Hs IH Hf]; cbn [map]; constructor.
        + apply IH. intros kv Hk. apply Ho. now right.
        + rewrite Forall_forall in *. intros a Ha. apply in_map_iff in Ha as ([[i' n'] v'] & <- & Ha).
          pose proof (Ho _ (or_introl eq_refl)) as E1. pose proof (Ho _ (or_intror Ha)) as E2. cbn [fst snd] in *. subst.
          apply Hf in Ha. cbn [fst] in Ha. now apply vpk_lt in Ha.
      - intros [n x]. rewrite in_map_iff. cbn [fst snd]. split.
        + intros ([[i n'] v] & Ea & Hk). pose proof (Ho _ Hk) as E1. cbn [fst snd] in *. inversion Ea; subst. now apply Hin in Hk.
        + intros Hg. exists (id, n, x). split; [reflexivity|]. apply Hin. split; [assumption|].
          unfold vpk. cbn [fst snd]. rewrite vprop_key_eq. eauto.
    Qed.

    Lemma eprops_for_owner_rep e : exists l, eprops_for_owner H dec d e = map Ok (map (fun a => (e, fst a, snd a)) l) /\
      listing (fun a b => lt (fst a) (fst b)) (fun a : ident * json => get (e, fst a) (l_ep L) = Some (snd a)) l.
    Proof.
      unfold eprops_for_owner.
      destruct (rep_scan (@epk_inj H) (dec_eprop dec e) (fun kv => (e, snd (fst kv), snd kv)) (edge_key H e) (rp_ep R)) as (ks & E & Hs & Hin).
      { intros [i n] v Hg [r Hr]. unfold epk in Hr. cbn [fst snd] in *. rewrite eprop_key_eq in Hr.
        apply edge_key_prefix_free in Hr as [-> _]. apply dec_eprop_ok. now apply (rp_egood R _ Hg). }
      exists (map (fun kv => (snd (fst kv), snd kv)) ks). split; [rewrite E, !map_map; reflexivity|].
      assert (forall kv, In kv ks -> fst (fst kv) = e) as Ho.
      { intros [[i n] v] Hk. apply Hin in Hk as [_ [r Hr]]. unfold epk in Hr. cbn [fst snd] in *.
        rewrite eprop_key_eq in Hr. now apply edge_key_prefix_free in Hr as [-> _]. }
      split.
      - clear -Hs Ho. induction Hs as [|[[i n] v] l Hs IH Hf]; cbn [map]; constructor.
        + apply IH. intros kv Hk. apply Ho. now right.
        + rewrite Forall_forall in *. intros a Ha. apply in_map_iff in Ha as ([[i' n'] v'] & <- & Ha).
          pose proof (Ho _ (or_introl eq_refl)) as E1. pose proof (Ho _ (or_intror Ha)) as E2. cbn [fst snd] in *. subst.
          apply Hf in Ha. cbn [fst] in Ha. now apply epk_lt in Ha.
      - intros [n x]. rewrite in_map_iff. cbn [fst snd]. split.
        + intros ([[i n'] v] & Ea & Hk). pose proof (Ho _ Hk) as E1. cbn [fst snd] in *. inversion Ea; subst. now apply Hin in Hk.
        + intros Hg. exists (e, n, x). split; [reflexivity|]. apply Hin. split; [assumption|].
          unfold epk. cbn [fst snd]. rewrite eprop_key_eq. eauto.
    Qed.

    (** Index scans. *)
    Lemma vvalues_for_name_rep n : exists ks, vvalues_for_name H d n = map Ok (map (fun k => snd (snd k)) ks) /\
      NoDup ks /\ forall k, In k ks <-> mem k (l_vv L) = true /\ fst k = n.
    Proof.
      unfold vvalues_for_name. rewrite prefix_ident.
      destruct (rep_scan vvk_inj dec_vvalue (fun kv => snd (snd (fst kv))) (ik n) (rp_vv R)) as (ks & E & Hs & Hin).
      { intros k v _ _. apply dec_vvalue_ok. }
      exists (map fst ks). split; [rewrite E, !map_map; reflexivity|]. split.
      - apply (sorted_NoDup (R := fun a b => lt (vvk a) (vvk b))); [intros x; apply lt_irrefl|].
        eapply sorted_map; [|exact Hs]. auto.
      - intros k. rewrite in_map_iff, <- get_oset. split.
        + intros ([k' []] & <- & Hk). apply Hin in Hk as [Hk [r Hr]]. split; [assumption|].
          unfold vvk in Hr. now apply ik_prefix_free in Hr as [Hr _].
        + intros [Hg <-]. exists (k, tt). split; [reflexivity|]. apply Hin. split; [assumption|]. unfold vvk. eauto.
    Qed.
    Lemma vvalues_for_value_rep n x : exists ks, vvalues_for_value H d n x = map Ok (map (fun k => snd (snd k)) ks) /\
      NoDup ks /\ forall k, In k ks <-> mem k (l_vv L) = true /\ fst k = n /\ fst (snd k) = hash8 H x.
    Proof.
      unfold vvalues_for_value. rewrite prefix_ident_json.
      destruct (rep_scan vvk_inj dec_vvalue (fun kv => snd (snd (fst kv))) (ik n ++ hb H x) (rp_vv R)) as (ks & E & Hs & Hin).
      { intros k v _ _. apply dec_vvalue_ok. }
      exists (map fst ks). split; [rewrite E, !map_map; reflexivity|]. split.
      - apply (sorted_NoDup (R := fun a b => lt (vvk a) (vvk b))); [intros y; apply lt_irrefl|].
        eapply sorted_map; [|exact Hs]. auto.
      - intros k. rewrite in_map_iff, <- get_oset. split.
        + intros ([k' []] & <- & Hk). apply Hin in Hk as [Hk [r Hr]]. split; [assumption|].
          unfold vvk in Hr. rewrite <- app_assoc in Hr. apply ik_prefix_free in Hr as [Hr1 Hr]. split; [assumption|].
          apply app_inj_len in Hr as [Hr _]; [|now rewrite h8b_length, hb_length]. now apply h8b_inj.
        + intros (Hg & <- & Hh). exists (k, tt). split; [reflexivity|]. apply Hin. split; [assumption|].
          unfold vvk. exists (ub (snd (snd k))). rewrite Hh, h8b_hash. now rewrite <- app_assoc.
    Qed.
    Lemma evalues_for_name_rep n : exists ks, evalues_for_name H d n = map Ok (map (fun k => snd (snd k)) ks) /\
      NoDup ks /\ forall k, In k ks <-> mem k (l_ev L) = true /\ fst k = n.
    Proof.
      unfold evalues_for_name. rewrite prefix_ident.
      destruct (rep_scan (@evk_inj H) dec_evalue (fun kv => snd (snd (fst kv))) (ik n) (rp_ev R)) as (ks & E & Hs & Hin).
      { intros k v _ _. apply dec_evalue_ok. }
      exists (map fst ks). split; [rewrite E, !map_map; reflexivity|]. split.
      - apply (sorted_NoDup (R := fun a b => lt (evk H a) (evk H b))); [intros x; apply lt_irrefl|].
        eapply sorted_map; [|exact Hs]. auto.
      - intros k. rewrite in_map_iff, <- get_oset. split.
        + intros ([k' []] & <- & Hk). apply Hin in Hk as [Hk [r Hr]]. split; [assumption|].
          unfold evk in Hr. now apply ik_prefix_free in Hr as [Hr _].
        + intros [Hg <-]. exists (k, tt). split; [reflexivity|]. apply Hin. split; [assumption|]. unfold evk. eauto.
    Qed.
    Lemma evalues_for_value_rep n x : exists ks, evalues_for_value H d n x = map Ok (map (fun k => snd (snd k)) ks) /\
      NoDup ks /\ forall k, In k ks <-> mem k (l_ev L) = true /\ fst k = n /\ fst (snd k) = hash8 H x.
    Proof.
      unfold evalues_for_value. rewrite prefix_ident_json.
      destruct (rep_scan (@evk_inj H) dec_evalue (fun kv => snd (snd (fst kv))) (ik n ++ hb H x) (rp_ev R)) as (ks & E & Hs & Hin).
      { intros k v _ _. apply dec_evalue_ok. }
      exists (map fst ks). split; [rewrite E, !map_map; reflexivity|]. split.
      - apply (sorted_NoDup (R := fun a b => lt (evk H a) (evk H b))); [intros y; apply lt_irrefl|].
        eapply sorted_map; [|exact Hs]. auto.
      - intros k. rewrite in_map_iff, <- get_oset. split.
        + intros ([k' []] & <- & Hk). apply Hin in Hk as [Hk [r Hr]]. split; [assumption|].
          unfold evk in Hr. rewrite <- app_assoc in Hr. apply ik_prefix_free in Hr as [Hr1 Hr]. split; [assumption|].
          apply app_inj_len in Hr as [Hr _]; [|now rewrite h8b_length, hb_length]. now apply h8b_inj.
        + intros (Hg & <- & Hh). exists (k, tt). split; [reflexivity|]. apply Hin. split; [assumption|].
          unfold evk. exists (edge_key H (snd (snd k))). rewrite Hh, h8b_hash. now rewrite <- app_assoc.
    Qed.

    Lemma NoDup_map_inj {A B} (f : A -> B) l :
      (forall x y, In x l -> In y l -> f x = f y -> x = y) -> NoDup l -> NoDup (map f l).
    Proof.
      intros Hi. induction 1 as [|a l Hn ND IH]; cbn; constructor.
      - rewrite in_map_iff. intros (b & E & Hb). apply Hi in E; [|now right|now left]. now subst.
      - apply IH. intros x y Hx Hy. apply Hi; now right.
    Qed.

    Lemma filter_Ok {A} (f : A -> bool) (p : outcome A -> bool) l :
      (forall a, p (Ok a) = f a) -> filter p (map Ok l) = map Ok (filter f l).
    Proof.
      intros Hp. induction l as [|a l IH]; cbn; [reflexivity|]. rewrite Hp. destruct (f a); cbn; now rewrite IH.
    Qed.

    Variable env : renv.
    Lemma rdb_reads_ok : reads_ok (rdb_ops H enc dec env) s g slt hm (rix_ok L) (fun _ => False).
    Proof.
      split.
      - destruct (vertices_from_rep nil_uuid) as (l & E & HL). exists l. split; [cbn; unfold yields; now rewrite <- E|].
        eapply listing_iff; [exact HL|]. intros v. split; [tauto|]. intros Hv. split; [assumption|apply nil_min].
      - destruct (vertices_from_rep nil_uuid) as (l & E & HL). exists l. split.
        + cbn. unfold rdb_vertex_count. rewrite E. unfold lenN. now rewrite map_length.
        + eapply listing_iff; [exact HL|]. intros v. split; [tauto|]. intros Hv. split; [assumption|apply nil_min].
      - intros id. destruct (vertices_from_rep id) as (l & E & HL). exists l. split; [cbn; unfold yields; now rewrite <- E|assumption].
      - intros ids. unfold yields. cbn. unfold rdb_specific_vertices. f_equal.
        induction ids as [|id ids IH]; cbn [filter_map flat_map map]; [reflexivity|]. rewrite vertex_get_rep. unfold found at 1. cbn [gabs gv].
        destruct (get id (l_v L)); cbn; rewrite IH; reflexivity.
      - destruct edges_all_rep as (l & E & HL). exists l. split; [cbn; unfold yields; now rewrite <- E|assumption].
      - destruct edges_all_rep as (l & E & HL). exists l. split; [|assumption].
        cbn. unfold rdb_edge_count. rewrite E. unfold lenN. now rewrite map_length.
      - intros lo. destruct (edges_from_rep lo (rp_e R)) as (l & E & HL). exists l. split; [cbn; unfold yields, rdb_range_edges; now rewrite E|assumption].
      - intros lo. destruct (edges_from_rep lo (rp_r R)) as (l & E & HL). exists l. split; [cbn; unfold yields, rdb_range_reversed_edges; now rewrite E|].
        eapply listing_iff; [exact HL|]. intros e. cbn. rewrite (rp_mirror R). reflexivity.
      - intros es. eexists. split; [reflexivity|]. apply keeps_filter. intros e _. rewrite edge_contains_rep. reflexivity.
      - intros n. unfold lookup. cbn. unfold rdb_vertex_ids_with_property, indexed. cbn [gabs gix].
        destruct (mem n (r_indexed s)) eqn:Ei; [right|left; split; [reflexivity|congruence]].
        destruct (vvalues_for_name_rep n) as (ks & E & ND & Hin). rewrite E. unfold existing_ids.
        rewrite (filter_Ok (fun id => mem id (l_v L))) by (intros a; apply vertex_exists_rep).
        eexists. split; [reflexivity|]. split; [reflexivity|]. intros (X & _ & _). split.
        + apply NoDup_filter, NoDup_map_inj; [|assumption].
          intros [n1 [h1 i1]] [n2 [h2 i2]] H1 H2. cbn [fst snd]. intros ->. apply Hin in H1 as [H1 N1]. apply Hin in H2 as [H2 N2].
          cbn [fst snd] in *. subst. apply X in H1 as (x1 & G1 & ->). apply X in H2 as (x2 & G2 & ->). congruence.
        + intros v Hv. unfold has, vprop_fn. cbn [gabs gvp]. rewrite filter_In, in_map_iff. split.
          * intros [([n1 [h1 i1]] & <- & H1) _]. apply Hin in H1 as [H1 N1]. cbn [fst snd] in *. subst. apply X in H1 as (x1 & G1 & _). eauto.
          * intros (x & Hx). split; [|apply mem_get; eauto]. exists (n, (hash8 H x, vid v)). split; [reflexivity|].
            apply Hin. split; [|reflexivity]. apply X. eauto.
      - intros n x. unfold lookup. cbn. unfold rdb_vertex_ids_with_property_value, indexed. cbn [gabs gix].
        destruct (mem n (r_indexed s)) eqn:Ei; [right|left; split; [reflexivity|congruence]].
        destruct (vvalues_for_value_rep n x) as (ks & E & ND & Hin). rewrite E. unfold existing_ids.
        rewrite (filter_Ok (fun id => mem id (l_v L))) by (intros a; apply vertex_exists_rep).
        eexists. split; [reflexivity|]. split; [reflexivity|]. intros (X & _ & _). split.
        + apply NoDup_filter, NoDup_map_inj; [|assumption].
          intros [n1 [h1 i1]] [n2 [h2 i2]] H1 H2. cbn [fst snd]. intros ->. apply Hin in H1 as (_ & N1 & M1). apply Hin in H2 as (_ & N2 & M2).
          cbn [fst snd] in *. congruence.
        + intros v Hv. unfold has_value, vprop_fn, hm. cbn [gabs gvp]. rewrite filter_In, in_map_iff. split.
          * intros [([n1 [h1 i1]] & <- & H1) _]. apply Hin in H1 as (H1 & N1 & M1). cbn [fst snd] in *. subst. apply X in H1 as (x1 & G1 & ?). eauto.
          * intros (y & Hy & Eh). split; [|apply mem_get; eauto]. exists (n, (hash8 H y, vid v)). split; [reflexivity|].
            apply Hin. split; [|auto]. apply X. eauto.
      - intros n. unfold lookup. cbn. unfold rdb_edges_with_property, indexed. cbn [gabs gix].
        destruct (mem n (r_indexed s)) eqn:Ei; [right|left; split; [reflexivity|congruence]].
        destruct (evalues_for_name_rep n) as (ks & E & ND & Hin). rewrite E.
        eexists. split; [reflexivity|]. split; [reflexivity|]. intros (_ & X & Ex). split.
        + apply NoDup_map_inj; [|assumption].
          intros [n1 [h1 i1]] [n2 [h2 i2]] H1 H2. cbn [fst snd]. intros ->. apply Hin in H1 as [H1 N1]. apply Hin in H2 as [H2 N2].
          cbn [fst snd] in *. subst. apply X in H1 as (x1 & G1 & ->). apply X in H2 as (x2 & G2 & ->). congruence.
        + intros e. unfold has, eprop_fn, is_edge. cbn [gabs gep ge]. rewrite in_map_iff. split.
          * intros ([n1 [h1 i1]] & <- & H1). apply Hin in H1 as [H1 N1]. cbn [fst snd] in *. subst. apply X in H1 as (x1 & G1 & _).
            split; [eauto|eauto].
          * intros [_ (x & Hx)]. exists (n, (hash8 H x, e)). split; [reflexivity|]. apply Hin. split; [|reflexivity]. apply X. eauto.
      - intros n x. unfold lookup. cbn. unfold rdb_edges_with_property_value, indexed. cbn [gabs gix].
        destruct (mem n (r_indexed s)) eqn:Ei; [right|left; split; [reflexivity|congruence]].
        destruct (evalues_for_value_rep n x) as (ks & E & ND & Hin). rewrite E.
        eexists. split; [reflexivity|]. split; [reflexivity|]. intros (_ & X & Ex). split.
        + apply NoDup_map_inj; [|assumption].
          intros [n1 [h1 i1]] [n2 [h2 i2]] H1 H2. cbn [fst snd]. intros ->. apply Hin in H1 as (_ & N1 & M1). apply Hin in H2 as (_ & N2 & M2).
          cbn [fst snd] in *. congruence.
        + intros e. unfold has_value, eprop_fn, is_edge, hm. cbn [gabs gep ge]. rewrite in_map_iff. split.
          * intros ([n1 [h1 i1]] & <- & H1). apply Hin in H1 as (H1 & N1 & M1). cbn [fst snd] in *. subst. apply X in H1 as (x1 & G1 & ?).
            split; [eauto|eauto].
          * intros [_ (y & Hy & Eh)]. exists (n, (hash8 H y, e)). split; [reflexivity|]. apply Hin. split; [|auto]. apply X. eauto.
      - intros v n. cbn. unfold rdb_vertex_property. apply vprop_get_rep.
      - intros v _. destruct (vprops_for_owner_rep (vid v)) as (l & E & HL). exists l. split; [|exact HL].
        unfold yields. cbn. unfold rdb_all_vertex_properties. rewrite E, collect_Ok. cbn [obind]. f_equal. rewrite map_map.
        apply map_ext. now intros [].
      - intros v [].
      - auto.
      - intros e n. cbn. unfold rdb_edge_property. apply eprop_get_rep.
      - intros e. destruct (eprops_for_owner_rep e) as (l & E & HL). exists l. split; [|exact HL].
        unfold yields. cbn. unfold rdb_all_edge_properties. rewrite E, collect_Ok. cbn [obind]. f_equal. rewrite map_map.
        apply map_ext. now intros [].
    Qed.
  End Reads.
End Rep.
