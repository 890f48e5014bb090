(** * The in-memory datastore refines the specification. *)
From Verif Require Import Base OMap Json Types Util Db Mem Spec QueryFacts SpecFacts JsonFacts UtilFacts.

Set Implicit Arguments.

Ltac conj := repeat match goal with
  | |- _ /\ _ => split
  | |- Ok tt = Ok tt -> _ => intros _
  | |- (Panic = Ok _) -> _ => let H := fresh in intros H; discriminate H
  end.

(** ** The abstract graph of a memory *)

Definition gof (m : memory) : graph :=
  Graph (m_vertices m) (m_edges m) (m_vprops m) (m_eprops m) (dom (m_index m)).

(** ** Containers *)

Definition c_has (c : container) (v : json) (mb : member) : bool :=
  match c_get v c with Some ms => mem mb ms | None => false end.

Definition c_ok (c : container) : Prop :=
  ForallOrdPairs (fun a b => key_eq (fst a) (fst b) = false) c.

Lemma c_get_update w v f c :
  c_get w (c_update v f c) =
  if key_eq v w then Some (f (match c_get v c with Some ms => ms | None => empty end)) else c_get w c.
Proof.
  induction c as [|[k ms] c IH]; cbn [c_update c_get].
  - now destruct (key_eq v w).
  - destruct (key_eq k v) eqn:E; cbn [c_get].
    + destruct (key_eq v w) eqn:F.
      * now rewrite (key_eq_trans _ _ _ E F).
      * destruct (key_eq k w) eqn:G; [|reflexivity].
        rewrite key_eq_sym in E. now rewrite (key_eq_trans _ _ _ E G) in F.
    + rewrite IH. destruct (key_eq k w) eqn:G; [|reflexivity].
      destruct (key_eq v w) eqn:F; [|reflexivity].
      rewrite key_eq_sym in F. now rewrite (key_eq_trans _ _ _ G F) in E.
Qed.

Lemma c_get_equiv v w c : key_eq v w = true -> c_get v c = c_get w c.
Proof.
  intros E. induction c as [|[k ms] c IH]; cbn [c_get]; [reflexivity|].
  rewrite IH. destruct (key_eq k v) eqn:F.
  - now rewrite (key_eq_trans _ _ _ F E).
  - destruct (key_eq k w) eqn:G; [|reflexivity]. rewrite key_eq_sym in E.
    now rewrite (key_eq_trans _ _ _ G E) in F.
Qed.

Lemma c_has_equiv v w c mb : key_eq v w = true -> c_has c v mb = c_has c w mb.
Proof. intros E. unfold c_has. now rewrite (c_get_equiv _ _ _ E). Qed.

Lemma c_has_update w v f c mb :
  c_has (c_update v f c) w mb =
  if key_eq v w then mem mb (f (match c_get v c with Some ms => ms | None => empty end)) else c_has c w mb.
Proof. unfold c_has. rewrite c_get_update. now destruct (key_eq v w). Qed.

Lemma c_has_add w v c mb mb' :
  c_has (c_update v (add mb') c) w mb = (key_eq v w && eqb mb mb') || c_has c w mb.
Proof.
  rewrite c_has_update. destruct (key_eq v w) eqn:E; cbn [andb orb]; [|reflexivity].
  rewrite mem_add. f_equal. rewrite <- (c_has_equiv _ _ c mb E). unfold c_has. now destruct (c_get v c).
Qed.

Lemma mem_fold_add {A} {O : Ord A} (l : list A) : forall (s : oset A) x,
  mem x (fold_left (fun s x => add x s) l s) = inb x l || mem x s.
Proof.
  induction l as [|a l IH]; intros s x; cbn [fold_left]; [reflexivity|].
  rewrite IH, mem_add. unfold inb. cbn [existsb]. destruct (eqb x a), (existsb (eqb x) l), (mem x s); reflexivity.
Qed.

Lemma c_has_add_all w v c mb mbs :
  c_has (c_update v (fun ms => fold_left (fun s x => add x s) mbs ms) c) w mb =
  (key_eq v w && inb mb mbs) || c_has c w mb.
Proof.
  rewrite c_has_update. destruct (key_eq v w) eqn:E; cbn [andb orb]; [|reflexivity].
  rewrite mem_fold_add. f_equal. rewrite <- (c_has_equiv _ _ c mb E). unfold c_has. now destruct (c_get v c).
Qed.

Lemma c_has_del w v c mb mb' :
  c_has (c_update v (del mb') c) w mb = negb (key_eq v w && eqb mb mb') && c_has c w mb.
Proof.
  rewrite c_has_update. destruct (key_eq v w) eqn:E; cbn [andb negb]; [|reflexivity].
  rewrite mem_del. f_equal. rewrite <- (c_has_equiv _ _ c mb E). unfold c_has. now destruct (c_get v c).
Qed.

Lemma c_update_keys v f c k : In k (map fst (c_update v f c)) -> In k (map fst c) \/ k = v.
Proof.
  induction c as [|[k' ms] c IH]; cbn [c_update map fst In].
  - intros [->|[]]; auto.
  - destruct (key_eq k' v); cbn [map fst In]; [tauto|]. intros [->|H]; [auto|]. apply IH in H. tauto.
Qed.

Lemma c_ok_update v f c : c_ok c -> c_ok (c_update v f c).
Proof.
  unfold c_ok. induction 1 as [|[k ms] c Hh Ht IH]; cbn [c_update].
  - repeat constructor.
  - destruct (key_eq k v) eqn:E; constructor; auto.
    rewrite Forall_forall in *. intros [k' ms'] Hin. cbn [fst].
    apply (in_map fst) in Hin. apply c_update_keys in Hin. cbn [fst] in Hin.
    destruct Hin as [Hin| ->]; [|assumption].
    apply in_map_iff in Hin as (x & <- & Hx). now apply Hh in Hx.
Qed.

Lemma c_ok_get c k ms : c_ok c -> In (k, ms) c -> c_get k c = Some ms.
Proof.
  unfold c_ok. induction 1 as [|[k' ms'] c Hh Ht IH]; cbn [c_get In]; [tauto|].
  intros [E|Hin].
  - inversion E; subst. now rewrite key_eq_refl.
  - rewrite Forall_forall in Hh. specialize (Hh _ Hin). cbn [fst] in Hh. now rewrite Hh, IH.
Qed.

Lemma c_get_In c v ms : c_get v c = Some ms -> exists k, In (k, ms) c /\ key_eq k v = true.
Proof.
  induction c as [|[k' ms'] c IH]; cbn [c_get]; [discriminate|].
  destruct (key_eq k' v) eqn:E.
  - intros H. inversion H; subst. exists k'. split; [now left|assumption].
  - intros H. destruct (IH H) as (k & Hk & E'). exists k. split; [now right|assumption].
Qed.

(** Membership anywhere in a container. *)
Lemma c_any c mb : c_ok c ->
  (exists kv, In kv c /\ mem mb (snd kv) = true) <-> exists v, c_has c v mb = true.
Proof.
  intros Hc. split.
  - intros ([k ms] & Hin & Hm). exists k. unfold c_has. now rewrite (c_ok_get _ _ Hc Hin).
  - intros (v & H). unfold c_has in H. destruct (c_get v c) as [ms|] eqn:E; [|discriminate].
    apply c_get_In in E as (k & Hk & _). exists (k, ms). auto.
Qed.

(** ** Index invariants *)

(** The stored property of an index member. *)
Definition mprop (m : memory) (mb : member) (n : ident) : option json :=
  match mb with
  | MVertex id => get (id, n) (m_vprops m)
  | MEdge e => get (e, n) (m_eprops m)
  end.

Definition cok (m : memory) : Prop := forall n c, get n (m_index m) = Some c -> c_ok c.
(** Index entries belong to stored properties. *)
Definition sound (m : memory) : Prop := forall n c v mb,
  get n (m_index m) = Some c -> c_has c v mb = true ->
  exists x, mprop m mb n = Some x /\ key_eq x v = true.
(** Stored properties with an indexed name are in the index. *)
Definition complete (m : memory) : Prop := forall n c mb x,
  get n (m_index m) = Some c -> mprop m mb n = Some x -> c_has c x mb = true.

Section Build.
  Variable dbg : bool.

  Lemma unindex_spec m n v mb :
    mprop m mb n = None ->
    forall r m', unindex dbg m n v mb = (r, m') ->
    (r = Ok tt \/ r = Panic /\ dbg = true) /\
    ((forall c, get n (m_index m) = Some c -> c_has c v mb = true) -> r = Ok tt) /\
    (r = Ok tt ->
       gof m' = gof m /\ m_reversed m' = m_reversed m /\
       (cok m -> cok m') /\
       (complete m -> complete m') /\
       (dbg = true ->
          (forall n' c w mb', get n' (m_index m) = Some c -> c_has c w mb' = true ->
             (n' = n /\ mb' = mb /\ key_eq v w = true) \/ exists x, mprop m mb' n' = Some x /\ key_eq x w = true) ->
          sound m')).
  Proof.
    intros Hn r m' E. unfold unindex in E.
    destruct (get n (m_index m)) as [c|] eqn:G.
    2:{ inversion E; subst. conj; auto. intros _ H n' c w mb' Hc Hh.
        destruct (H n' c w mb' Hc Hh) as [[-> _]|?]; [congruence|assumption]. }
    destruct dbg eqn:D.
    2:{ inversion E; subst. conj; auto. discriminate. }
    destruct (c_get v c) as [ms|] eqn:K.
    2:{ inversion E; subst. conj; auto; try discriminate.
        intros H. specialize (H c eq_refl). unfold c_has in H. now rewrite K in H. }
    set (m1 := with_index m (set n (c_update v (del mb) c) (m_index m))) in *.
    assert (mem mb ms = true -> r = Ok tt /\ m' = m1) as EM.
    { intros M. rewrite M in E. now inversion E. }
    assert (mem mb ms = false -> r = Panic) as EP.
    { intros M. rewrite M in E. now inversion E. }
    assert (r = Ok tt -> mem mb ms = true /\ m' = m1) as ER.
    { intros ->. destruct (mem mb ms) eqn:M; [split; [reflexivity|now apply EM]|]. specialize (EP eq_refl). discriminate. }
    split; [|split].
    - destruct (mem mb ms) eqn:M; [left; now apply EM|right; auto].
    - intros H. specialize (H c eq_refl). unfold c_has in H. rewrite K in H. now apply EM.
    - intros R. destruct (ER R) as [M ->]. unfold m1. conj.
      + unfold gof; cbn. f_equal. apply oset_ext. intros k. rewrite !mem_dom, mem_set.
        destruct (eqb k n) eqn:Ek; [|reflexivity]. apply eqb_eq in Ek. subst. cbn. symmetry. apply mem_get. eauto.
      + reflexivity.
      + intros Hc n' c' H. cbn in H. rewrite get_set in H. destruct (eqb n' n) eqn:En.
        * inversion H; subst. apply c_ok_update. eauto.
        * eauto.
      + intros Hc n' c' mb' x H Hp. cbn in H. change (mprop m mb' n' = Some x) in Hp. rewrite get_set in H.
        destruct (eqb n' n) eqn:En.
        * apply eqb_eq in En. subst n'. inversion H; subst. rewrite c_has_del.
          rewrite (Hc n c mb' x G Hp), andb_true_r. apply negb_true_iff.
          destruct (eqb mb' mb) eqn:Em; [|apply andb_false_r]. apply eqb_eq in Em. subst. congruence.
        * eauto.
      + intros _ H n' c' w mb' Hc Hh. cbn in Hc. change (exists x, mprop m mb' n' = Some x /\ key_eq x w = true).
        rewrite get_set in Hc. destruct (eqb n' n) eqn:En.
        * apply eqb_eq in En. subst n'. inversion Hc; subst. rewrite c_has_del in Hh.
          apply andb_true_iff in Hh as [Hd Hh].
          destruct (H n c w mb' G Hh) as [(_ & -> & Hv)|Hx]; [|assumption].
          rewrite Hv, eqb_refl in Hd. discriminate.
        * destruct (H n' c' w mb' Hc Hh) as [(-> & _)|Hx]; [|assumption].
          rewrite eqb_refl in En. discriminate.
  Qed.

  (** Result of a state-changing memory function: it returns [Ok], or panics
      in a debug build on an incomplete index. *)
  Definition refines (m : memory) (x : outcome unit * memory) (g' : graph) : Prop :=
    (fst x = Ok tt \/ fst x = Panic /\ dbg = true) /\
    (complete m -> fst x = Ok tt) /\
    (fst x = Ok tt ->
       gof (snd x) = g' /\
       (cok m -> cok (snd x)) /\
       (complete m -> complete (snd x)) /\
       (dbg = true -> sound m -> sound (snd x))).

  Lemma sbind_ok {S A B} (x : outcome A * S) (f : A -> S -> outcome B * S) r s' :
    sbind x f = (Ok r, s') -> exists a s, x = (Ok a, s) /\ f a s = (Ok r, s').
  Proof. destruct x as [[a|e|] s]; cbn; intros H; inversion H; subst; eauto. Qed.

  Lemma delete_vprops_spec ps : forall m,
    refines m (mem_delete_vertex_properties dbg m ps) (g_delete_vertex_properties (gof m) ps) /\
    (fst (mem_delete_vertex_properties dbg m ps) = Ok tt ->
     m_reversed (snd (mem_delete_vertex_properties dbg m ps)) = m_reversed m).
  Proof.
    induction ps as [|p ps IH]; intros m; cbn [mem_delete_vertex_properties].
    - split; [|reflexivity]. unfold refines; cbn [fst snd]; conj; auto.
      unfold g_delete_vertex_properties. cbn [gv ge gvp gep gix gof]. rewrite filt_true by auto. reflexivity.
    - destruct (get p (m_vprops m)) as [v|] eqn:G.
      2:{ destruct (IH m) as [R RV]. split; [|exact RV].
          assert (g_delete_vertex_properties (gof m) (p :: ps) = g_delete_vertex_properties (gof m) ps) as ->; [|exact R].
          unfold g_delete_vertex_properties. cbn [gv ge gvp gep gix gof]. rewrite filt_inb_cons.
          now rewrite (del_absent p (m_vprops m) G). }
      set (m1 := with_vprops m (del p (m_vprops m))) in *.
      destruct p as [id n]. cbn [fst snd].
      destruct (unindex dbg m1 n v (MVertex id)) as [r1 m2] eqn:U.
      assert (mprop m1 (MVertex id) n = None) as PN by apply get_del_same.
      destruct (@unindex_spec m1 n v (MVertex id) PN r1 m2 U) as (O1 & C1 & K1).
      assert (complete m -> r1 = Ok tt) as CO.
      { intros C. apply C1. intros c Hc. apply (C n c (MVertex id) v Hc). exact G. }
      assert (forall mb x n', mprop m1 mb n' = Some x -> mprop m mb n' = Some x) as PM.
      { intros [i|e] x n'; cbn; [|auto]. rewrite get_del. destruct (eqb (i, n') (id, n)); [discriminate|auto]. }
      destruct (IH m2) as [(O2 & C2 & K2) RV2].
      assert (r1 = Ok tt -> complete m -> complete m2) as CM.
      { intros R1 C. destruct (K1 R1) as (_ & _ & _ & KC & _). apply KC.
        intros n' c mb x Hc Hp. apply (C n' c mb x); auto. }
      unfold refines. destruct O1 as [->|[-> D]]; cbn [sbind].
      2:{ split; [|discriminate]. conj; auto; try discriminate. }
      destruct (K1 eq_refl) as (G1 & V1 & KO & KC & KS).
      split; [|intros R2; rewrite (RV2 R2); exact V1].
      split; [exact O2|]. split; [intros C; apply C2; now apply CM|].
      intros R2. destruct (K2 R2) as (G2 & KO2 & KC2 & KS2). conj.
      + rewrite G2, G1. unfold g_delete_vertex_properties, gof, m1. cbn. now rewrite filt_inb_cons.
      + intros HC. apply KO2, KO. exact HC.
      + intros C. apply KC2. now apply CM.
      + intros D S. apply KS2; auto. apply KS; auto. intros n' c w mb' Hc Hh.
        destruct (S n' c w mb' Hc Hh) as (x & Hx & Hk). destruct mb' as [i|e]; cbn in Hx |- *.
        * rewrite get_del. destruct (eqb (i, n') (id, n)) eqn:E.
          -- apply eqb_eq in E. inversion E; subst. left. conj; auto. congruence.
          -- right. eauto.
        * right. eauto.
  Qed.

  Lemma delete_eprops_spec ps : forall m,
    refines m (mem_delete_edge_properties dbg m ps) (g_delete_edge_properties (gof m) ps) /\
    (fst (mem_delete_edge_properties dbg m ps) = Ok tt ->
     m_reversed (snd (mem_delete_edge_properties dbg m ps)) = m_reversed m).
  Proof.
    induction ps as [|p ps IH]; intros m; cbn [mem_delete_edge_properties].
    - split; [|reflexivity]. unfold refines; cbn [fst snd]; conj; auto.
      unfold g_delete_edge_properties. cbn [gv ge gvp gep gix gof]. rewrite filt_true by auto. reflexivity.
    - destruct (get p (m_eprops m)) as [v|] eqn:G.
      2:{ destruct (IH m) as [R RV]. split; [|exact RV].
          assert (g_delete_edge_properties (gof m) (p :: ps) = g_delete_edge_properties (gof m) ps) as ->; [|exact R].
          unfold g_delete_edge_properties. cbn [gv ge gvp gep gix gof]. rewrite filt_inb_cons.
          now rewrite (del_absent p (m_eprops m) G). }
      set (m1 := with_eprops m (del p (m_eprops m))) in *.
      destruct p as [id n]. cbn [fst snd].
      destruct (unindex dbg m1 n v (MEdge id)) as [r1 m2] eqn:U.
      assert (mprop m1 (MEdge id) n = None) as PN by apply get_del_same.
      destruct (@unindex_spec m1 n v (MEdge id) PN r1 m2 U) as (O1 & C1 & K1).
      assert (complete m -> r1 = Ok tt) as CO.
      { intros C. apply C1. intros c Hc. apply (C n c (MEdge id) v Hc). exact G. }
      assert (forall mb x n', mprop m1 mb n' = Some x -> mprop m mb n' = Some x) as PM.
      { intros [i|e] x n'; cbn; [auto|]. rewrite get_del. destruct (eqb (e, n') (id, n)); [discriminate|auto]. }
      destruct (IH m2) as [(O2 & C2 & K2) RV2].
      assert (r1 = Ok tt -> complete m -> complete m2) as CM.
      { intros R1 C. destruct (K1 R1) as (_ & _ & _ & KC & _). apply KC.
        intros n' c mb x Hc Hp. apply (C n' c mb x); auto. }
      unfold refines. destruct O1 as [->|[-> D]]; cbn [sbind].
      2:{ split; [|discriminate]. conj; auto; try discriminate. }
      destruct (K1 eq_refl) as (G1 & V1 & KO & KC & KS).
      split; [|intros R2; rewrite (RV2 R2); exact V1].
      split; [exact O2|]. split; [intros C; apply C2; now apply CM|].
      intros R2. destruct (K2 R2) as (G2 & KO2 & KC2 & KS2). conj.
      + rewrite G2, G1. unfold g_delete_edge_properties, gof, m1. cbn. now rewrite filt_inb_cons.
      + intros HC. apply KO2, KO. exact HC.
      + intros C. apply KC2. now apply CM.
      + intros D S. apply KS2; auto. apply KS; auto. intros n' c w mb' Hc Hh.
        destruct (S n' c w mb' Hc Hh) as (x & Hx & Hk). destruct mb' as [i|e]; cbn in Hx |- *.
        * right. eauto.
        * rewrite get_del. destruct (eqb (e, n') (id, n)) eqn:E.
          -- apply eqb_eq in E. inversion E; subst. left. conj; auto. congruence.
          -- right. eauto.
  Qed.

  (** *** Composition *)

  Definition mirror (m : memory) : Prop := forall e, mem e (m_reversed m) = mem (reversed e) (m_edges m).

  (** [refines] together with the mirror of the two edge tables. *)
  Definition steps (m : memory) (x : outcome unit * memory) (g' : graph) : Prop :=
    refines m x g' /\ (fst x = Ok tt -> mirror m -> mirror (snd x)).

  Lemma steps_delete_vprops m ps :
    steps m (mem_delete_vertex_properties dbg m ps) (g_delete_vertex_properties (gof m) ps).
  Proof.
    destruct (delete_vprops_spec ps m) as [R V]. split; [exact R|]. intros E M e.
    destruct R as (_ & _ & R). destruct (R E) as (G & _). rewrite (V E), M.
    apply (f_equal ge) in G. cbn in G. now rewrite G.
  Qed.
  Lemma steps_delete_eprops m ps :
    steps m (mem_delete_edge_properties dbg m ps) (g_delete_edge_properties (gof m) ps).
  Proof.
    destruct (delete_eprops_spec ps m) as [R V]. split; [exact R|]. intros E M e.
    destruct R as (_ & _ & R). destruct (R E) as (G & _). rewrite (V E), M.
    apply (f_equal ge) in G. cbn in G. now rewrite G.
  Qed.

  Lemma steps_ret m m' g' :
    gof m' = g' -> (cok m -> cok m') -> (complete m -> complete m') ->
    (dbg = true -> sound m -> sound m') -> (mirror m -> mirror m') ->
    steps m (Ok tt, m') g'.
  Proof. intros. unfold steps, refines. cbn [fst snd]. conj; auto. Qed.

  Lemma steps_id m : steps m (Ok tt, m) (gof m).
  Proof. apply steps_ret; auto. Qed.

  Lemma steps_bind m x (f : unit -> memory -> outcome unit * memory) g1 (h : graph -> graph) :
    steps m x g1 ->
    (forall m1, x = (Ok tt, m1) -> gof m1 = g1 -> steps m1 (f tt m1) (h (gof m1))) ->
    steps m (sbind x f) (h g1).
  Proof.
    intros [(O & C & K) M] F. destruct x as [r m1]. cbn [fst snd] in *.
    destruct O as [->|[-> D]]; cbn [sbind].
    - destruct (K eq_refl) as (G & K1 & K2 & K3). destruct (F m1 eq_refl G) as [(O' & C' & K') M'].
      split; [split; [exact O'|split]|].
      + intros H. auto.
      + intros E. destruct (K' E) as (G' & K1' & K2' & K3'). rewrite G in G'. conj; auto.
      + intros E. auto.
    - split; [split; [right; auto|split]|]; cbn [fst].
      + intros H. apply C in H. discriminate.
      + discriminate.
      + discriminate.
  Qed.

  (** Prefixing with a change that keeps properties and index. *)
  Lemma steps_after m m1 x g' :
    (cok m -> cok m1) -> (complete m -> complete m1) -> (dbg = true -> sound m -> sound m1) ->
    (mirror m -> mirror m1) -> steps m1 x g' -> steps m x g'.
  Proof.
    intros H1 H2 H3 H4 [(O & C & K) M]. split; [split; [exact O|split]|]; auto.
    intros E. destruct (K E) as (G & K1 & K2 & K3). conj; auto.
  Qed.

  (** *** Deleting edges and vertices *)

  Lemma delete_edges_spec es : forall m, steps m (mem_delete_edges dbg m es) (g_delete_edges (gof m) es).
  Proof.
    induction es as [|e es IH]; intros m; cbn [mem_delete_edges].
    - rewrite g_delete_edges_nil. apply steps_id.
    - set (m1 := with_edges m (del e (m_edges m)) (del (reversed e) (m_reversed m))).
      apply steps_after with (m1 := m1); auto.
      { intros M e'. unfold m1, with_edges. cbn [m_reversed m_edges]. rewrite !mem_del, M. f_equal. f_equal.
        destruct (eqb e' (reversed e)) eqn:E.
        - apply eqb_eq in E. subst. now rewrite reversed_invol, eqb_refl.
        - symmetry. apply eqb_neq. apply eqb_neq in E. intros <-. now rewrite reversed_invol in E. }
      set (ps := map fst _).
      rewrite g_delete_edges_cons.
      assert (g_delete_edges (gof m) [e] = g_delete_edge_properties (gof m1) ps) as EQ.
      { unfold g_delete_edges, g_delete_edge_properties, gof. cbn [gv ge gvp gep gix m1 with_edges m_vertices m_edges m_vprops m_eprops m_index].
        f_equal.
        - apply omap_ext. intros k. rewrite get_filt, get_del. cbn [fst]. rewrite inb_cons, inb_nil, orb_false_r.
          destruct (get k (m_edges m)), (eqb k e); reflexivity.
        - apply omap_ext. intros k. rewrite !get_filt. cbn [fst].
          destruct (get k (m_eprops m)) as [v|] eqn:E; [|reflexivity].
          rewrite inb_cons, inb_nil, orb_false_r.
          assert (inb k ps = eqb (fst k) e) as ->; [|reflexivity].
          destruct (eqb (fst k) e) eqn:F.
          + apply eqb_eq in F. apply inb_In. unfold ps. apply in_map_iff. exists (k, v). split; [reflexivity|].
            apply owner_range. auto.
          + apply inb_not_In. intros H. unfold ps in H. apply in_map_iff in H as (kv & <- & H).
            apply owner_range in H as [H _]. apply eqb_neq in F. auto. }
      rewrite EQ. apply (steps_bind _ (fun g => g_delete_edges g es) (steps_delete_eprops m1 ps)).
      intros m2 _ _. apply IH.
  Qed.

  Lemma delete_vertices_spec vs : forall m,
    steps m (mem_delete_vertices dbg m vs) (g_delete_vertices (gof m) (map vid vs)).
  Proof.
    induction vs as [|v vs IH]; intros m; cbn [mem_delete_vertices map].
    - rewrite g_delete_vertices_nil. apply steps_id.
    - set (m1 := with_vertices m (del (vid v) (m_vertices m))).
      apply steps_after with (m1 := m1); auto.
      set (ps := map fst _).
      rewrite g_delete_vertices_cons.
      set (es g := filter (fun e => eqb (eout e) (vid v) || eqb (ein e) (vid v)) (keys (ge g))).
      assert (g_delete_vertices (gof m) [vid v] =
              (fun g => g_delete_edges g (es g)) (g_delete_vertex_properties (gof m1) ps)) as EQ.
      { unfold g_delete_vertices, g_delete_edges, g_delete_vertex_properties, gof.
        cbn [gv ge gvp gep gix m1 with_vertices m_vertices m_edges m_vprops m_eprops m_index].
        assert (forall e, mem e (m_edges m) = true -> inb e (es (Graph (m_vertices m) (m_edges m) (m_vprops m) (m_eprops m) (dom (m_index m)))) = incident [vid v] e) as IN.
        { intros e He. unfold incident. rewrite !inb_cons, !inb_nil, !orb_false_r.
          destruct (eqb (eout e) (vid v) || eqb (ein e) (vid v)) eqn:E.
          - apply inb_In, filter_In. split; [now apply keys_In|assumption].
          - apply inb_not_In. intros H. apply filter_In in H as [_ H]. congruence. }
        assert (forall e, mem e (m_edges m) = false -> inb e (es (Graph (m_vertices m) (m_edges m) (m_vprops m) (m_eprops m) (dom (m_index m)))) = false) as NI.
        { intros e He. apply inb_not_In. intros H. apply filter_In in H as [H _]. apply keys_In in H. cbn in H. congruence. }
        f_equal.
        - apply omap_ext. intros k. rewrite get_filt, get_del. cbn [fst]. rewrite inb_cons, inb_nil, orb_false_r.
          destruct (get k (m_vertices m)), (eqb k (vid v)); reflexivity.
        - apply omap_ext. intros k. rewrite !get_filt. cbn [fst]. destruct (get k (m_edges m)) as [[]|] eqn:E; [|reflexivity].
          now rewrite <- IN by (apply mem_get; eauto).
        - apply omap_ext. intros k. rewrite !get_filt. cbn [fst].
          destruct (get k (m_vprops m)) as [x|] eqn:E; [|reflexivity].
          rewrite inb_cons, inb_nil, orb_false_r.
          assert (inb k ps = eqb (fst k) (vid v)) as ->; [|reflexivity].
          destruct (eqb (fst k) (vid v)) eqn:F.
          + apply eqb_eq in F. apply inb_In. unfold ps. apply in_map_iff. exists (k, x). split; [reflexivity|].
            apply owner_range. auto.
          + apply inb_not_In. intros H. unfold ps in H. apply in_map_iff in H as (kv & <- & H).
            apply owner_range in H as [H _]. apply eqb_neq in F. auto.
        - apply omap_ext. intros k. rewrite !get_filt. cbn [fst]. destruct (get k (m_eprops m)) as [x|] eqn:E; [|reflexivity].
          destruct (mem (fst k) (m_edges m)) eqn:Ek.
          + rewrite andb_true_r. now rewrite <- IN.
          + rewrite andb_false_r. change (es _) with (es (Graph (m_vertices m) (m_edges m) (m_vprops m) (m_eprops m) (dom (m_index m)))).
            now rewrite NI. }
      rewrite EQ.
      apply (steps_bind _ (fun g => g_delete_vertices (g_delete_edges g (es g)) (map vid vs)) (steps_delete_vprops m1 ps)).
      intros m2 _ _.
      apply (steps_bind _ (fun g => g_delete_vertices g (map vid vs)) (delete_edges_spec _ m2)).
      intros m3 _ _. apply IH.
  Qed.

  (** *** Creating *)

  Lemma create_vertex_spec m v :
    fst (mem_create_vertex m v) = Ok (negb (mem (vid v) (m_vertices m))) /\
    steps m (Ok tt, snd (mem_create_vertex m v)) (g_create_vertex (gof m) v).
  Proof.
    unfold mem_create_vertex, g_create_vertex. cbn [gv gof]. unfold mem at 1 2.
    destruct (get (vid v) (m_vertices m)) as [t|] eqn:E; cbn [fst snd negb].
    - split; [reflexivity|]. apply steps_id.
    - split; [reflexivity|]. apply steps_ret; auto.
  Qed.

  Lemma create_edge_spec m e :
    fst (mem_create_edge m e) = Ok (mem (eout e) (m_vertices m) && mem (ein e) (m_vertices m)) /\
    steps m (Ok tt, snd (mem_create_edge m e)) (g_create_edge (gof m) e).
  Proof.
    unfold mem_create_edge, g_create_edge. cbn [gv gof].
    rewrite <- negb_andb. destruct (mem (eout e) (m_vertices m) && mem (ein e) (m_vertices m)); cbn [negb fst snd].
    - split; [reflexivity|]. apply steps_ret; auto.
      intros M f. unfold with_edges. cbn [m_reversed m_edges]. rewrite !mem_add, M. f_equal.
      destruct (eqb f (reversed e)) eqn:E.
      + apply eqb_eq in E. subst. now rewrite reversed_invol, eqb_refl.
      + symmetry. apply eqb_neq. apply eqb_neq in E. intros <-. now rewrite reversed_invol in E.
    - split; [reflexivity|]. apply steps_id.
  Qed.

  (** *** Setting properties *)

  Lemma gof_index_members m n v mbs : gof (index_members m n v mbs) = gof m.
  Proof.
    unfold index_members. destruct (get n (m_index m)) as [c|] eqn:E; [|reflexivity].
    unfold gof, with_index. cbn [m_vertices m_edges m_vprops m_eprops m_index]. f_equal.
    apply oset_ext. intros k. rewrite !mem_dom, mem_set. destruct (eqb k n) eqn:Ek; [|reflexivity].
    apply eqb_eq in Ek. subst. cbn. symmetry. apply mem_get. eauto.
  Qed.
  Lemma mprop_index_members m n v mbs mb n' : mprop (index_members m n v mbs) mb n' = mprop m mb n'.
  Proof. unfold index_members. destruct (get n (m_index m)); reflexivity. Qed.
  Lemma reversed_index_members m n v mbs : m_reversed (index_members m n v mbs) = m_reversed m /\
     m_edges (index_members m n v mbs) = m_edges m.
  Proof. unfold index_members. destruct (get n (m_index m)); auto. Qed.
  Lemma get_index_members m n v mbs n' c' :
    get n' (m_index (index_members m n v mbs)) = Some c' ->
    exists c, get n' (m_index m) = Some c /\
      (cok m -> c_ok c') /\
      forall w mb, c_has c' w mb = (eqb n' n && key_eq v w && inb mb mbs) || c_has c w mb.
  Proof.
    unfold index_members. destruct (get n (m_index m)) as [c|] eqn:E.
    - cbn [with_index m_index]. rewrite get_set. destruct (eqb n' n) eqn:En.
      + intros H. inversion H; subst. apply eqb_eq in En. subst. exists c. split; [assumption|]. split.
        * intros C. apply c_ok_update. eauto.
        * intros w mb. apply c_has_add_all.
      + intros H. exists c'. split; [assumption|]. split; [intros C; eauto|reflexivity].
    - intros H. exists c'. split; [assumption|]. split; [intros C; eauto|].
      intros w mb. destruct (eqb n' n) eqn:En; [|reflexivity]. apply eqb_eq in En. subst. congruence.
  Qed.

  (** [m2] holds the properties of [m1] plus value [v] for the members [mbs],
      which had no property [n] before. *)
  Lemma index_members_spec m1 m2 n v mbs :
    m_index m2 = m_index m1 ->
    (forall mb, In mb mbs -> mprop m1 mb n = None /\ mprop m2 mb n = Some v) ->
    (forall mb n', ~ (In mb mbs /\ n' = n) -> mprop m2 mb n' = mprop m1 mb n') ->
    let m3 := index_members m2 n v mbs in
    (cok m1 -> cok m3) /\ (complete m1 -> complete m3) /\ (sound m1 -> sound m3).
  Proof.
    intros HI HM HO m3. conj.
    - intros C n' c' H. apply get_index_members in H as (c & Hc & Ho & _). apply Ho.
      intros n1 c1. rewrite HI. apply C.
    - intros C n' c' mb x H Hp. unfold m3 in Hp. rewrite mprop_index_members in Hp.
      apply get_index_members in H as (c & Hc & _ & Hh). rewrite Hh. rewrite HI in Hc.
      destruct (inb mb mbs) eqn:Em.
      + destruct (eqb n' n) eqn:En.
        * apply eqb_eq in En. subst. apply inb_In in Em. destruct (HM mb Em) as [_ E].
          assert (x = v) by congruence. subst. now rewrite key_eq_refl.
        * cbn. eapply C; eauto. rewrite <- HO; auto. intros [_ ->]. now rewrite eqb_refl in En.
      + rewrite andb_false_r. cbn. eapply C; eauto. rewrite <- HO; auto.
        intros [Hin _]. apply inb_not_In in Em. tauto.
    - intros S n' c' w mb H Hp. unfold m3. rewrite mprop_index_members.
      apply get_index_members in H as (c & Hc & _ & Hh). rewrite Hh in Hp. rewrite HI in Hc.
      apply orb_true_iff in Hp as [Hp|Hp].
      + apply andb_true_iff in Hp as [Hp Hi]. apply andb_true_iff in Hp as [Hn Hv].
        apply eqb_eq in Hn. subst. apply inb_In in Hi. destruct (HM mb Hi) as [_ E]. eauto.
      + destruct (S n' c w mb Hc Hp) as (x & Hx & Hk). exists x. split; [|assumption].
        rewrite HO; [assumption|]. intros [Hi ->]. destruct (HM mb Hi) as [E _]. congruence.
  Qed.

  Lemma set_vprops_spec m ids n v :
    steps m (mem_set_vertex_properties dbg m ids n v) (g_set_vertex_properties (gof m) ids n v).
  Proof.
    unfold mem_set_vertex_properties.
    assert (g_set_vertex_properties (gof m) ids n v =
            (fun g => g_set_vertex_properties g ids n v)
              (g_delete_vertex_properties (gof m) (map (fun id => (id, n)) ids))) as ->.
    { unfold g_set_vertex_properties, g_delete_vertex_properties. cbn [gv ge gvp gep gix]. f_equal.
      apply omap_ext. intros [i n']. rewrite !get_fold_set. cbn [fst snd].
      destruct (inb i ids && eqb n' n) eqn:E; [reflexivity|].
      rewrite (get_filt_key (fun k => negb (inb k (map (fun id => (id, n)) ids)))).
      assert (inb (i, n') (map (fun id => (id, n)) ids) = false) as ->; [|reflexivity].
      apply inb_not_In. intros H. apply in_map_iff in H as (i' & H & Hi). inversion H; subst.
      apply inb_In in Hi. rewrite Hi, eqb_refl in E. discriminate. }
    apply (steps_bind _ (fun g => g_set_vertex_properties g ids n v) (steps_delete_vprops m _)).
    intros m1 E G.
    set (m2 := with_vprops m1 _).
    destruct (@index_members_spec m1 m2 n v (map MVertex ids)) as (H1 & H2 & H3).
    - reflexivity.
    - intros mb Hmb. apply in_map_iff in Hmb as (i & <- & Hi). cbn [mprop]. split.
      + apply (f_equal gvp) in G. cbn [gof gvp g_delete_vertex_properties] in G. rewrite G.
        rewrite (get_filt_key (fun k => negb (inb k (map (fun id => (id, n)) ids)))).
        assert (inb (i, n) (map (fun id => (id, n)) ids) = true) as ->; [|reflexivity].
        apply inb_In, in_map_iff. eauto.
      + unfold m2, with_vprops. cbn [m_vprops]. rewrite get_fold_set. cbn [fst snd]. apply inb_In in Hi.
        now rewrite Hi, eqb_refl.
    - intros [i|e] n' H; cbn [mprop]; [|reflexivity].
      unfold m2, with_vprops. cbn [m_vprops]. rewrite get_fold_set. cbn [fst snd].
      destruct (inb i ids && eqb n' n) eqn:F; [|reflexivity]. exfalso. apply H.
      apply andb_true_iff in F as [F1 F2]. apply eqb_eq in F2. apply inb_In in F1. split; auto.
      now apply in_map.
    - apply steps_ret; auto.
      + rewrite gof_index_members. reflexivity.
      + intros M e. destruct (reversed_index_members m2 n v (map MVertex ids)) as [-> ->]. apply M.
  Qed.

  Lemma set_eprops_spec m es n v :
    steps m (mem_set_edge_properties dbg m es n v) (g_set_edge_properties (gof m) es n v).
  Proof.
    unfold mem_set_edge_properties.
    assert (g_set_edge_properties (gof m) es n v =
            (fun g => g_set_edge_properties g es n v)
              (g_delete_edge_properties (gof m) (map (fun id => (id, n)) es))) as ->.
    { unfold g_set_edge_properties, g_delete_edge_properties. cbn [gv ge gvp gep gix]. f_equal.
      apply omap_ext. intros [i n']. rewrite !get_fold_set. cbn [fst snd].
      destruct (inb i es && eqb n' n) eqn:E; [reflexivity|].
      rewrite (get_filt_key (fun k => negb (inb k (map (fun id => (id, n)) es)))).
      assert (inb (i, n') (map (fun id => (id, n)) es) = false) as ->; [|reflexivity].
      apply inb_not_In. intros H. apply in_map_iff in H as (i' & H & Hi). inversion H; subst.
      apply inb_In in Hi. rewrite Hi, eqb_refl in E. discriminate. }
    apply (steps_bind _ (fun g => g_set_edge_properties g es n v) (steps_delete_eprops m _)).
    intros m1 E G.
    set (m2 := with_eprops m1 _).
    destruct (@index_members_spec m1 m2 n v (map MEdge es)) as (H1 & H2 & H3).
    - reflexivity.
    - intros mb Hmb. apply in_map_iff in Hmb as (i & <- & Hi). cbn [mprop]. split.
      + apply (f_equal gep) in G. cbn [gof gep g_delete_edge_properties] in G. rewrite G.
        rewrite (get_filt_key (fun k => negb (inb k (map (fun id => (id, n)) es)))).
        assert (inb (i, n) (map (fun id => (id, n)) es) = true) as ->; [|reflexivity].
        apply inb_In, in_map_iff. eauto.
      + unfold m2, with_eprops. cbn [m_eprops]. rewrite get_fold_set. cbn [fst snd]. apply inb_In in Hi.
        now rewrite Hi, eqb_refl.
    - intros [i|e] n' H; cbn [mprop]; [reflexivity|].
      unfold m2, with_eprops. cbn [m_eprops]. rewrite get_fold_set. cbn [fst snd].
      destruct (inb e es && eqb n' n) eqn:F; [|reflexivity]. exfalso. apply H.
      apply andb_true_iff in F as [F1 F2]. apply eqb_eq in F2. apply inb_In in F1. split; auto.
      now apply in_map.
    - apply steps_ret; auto.
      + rewrite gof_index_members. reflexivity.
      + intros M e. destruct (reversed_index_members m2 n v (map MEdge es)) as [-> ->]. apply M.
  Qed.

  (** *** Bulk insert *)

  Lemma bulk_spec items : forall m, steps m (mem_bulk_insert dbg m items) (g_bulk_insert (gof m) items).
  Proof.
    unfold mem_bulk_insert, g_bulk_insert.
    assert (forall (b : bool) m (x : outcome bool * memory) g1 items (F : memory -> outcome unit * memory),
      fst x = Ok b -> steps m (Ok tt, snd x) g1 ->
      (forall m1, gof m1 = g1 -> steps m1 (F m1) (fold_left g_bulk_item items (gof m1))) ->
      steps m (sbind x (fun _ m' => F m')) (fold_left g_bulk_item items g1)) as B.
    { intros b m [r m1] g1 its F Hr Hs HF. cbn in Hr. subst r.
      apply (@steps_bind m (Ok tt, m1) (fun _ m => F m) g1 (fold_left g_bulk_item its) Hs).
      intros m2 E G. inversion E; subst. now apply HF. }
    induction items as [|it items IH]; intros m; cbn [default_bulk_insert fold_left]; [apply steps_id|].
    destruct it; cbn [g_bulk_item].
    - destruct (create_vertex_spec m v) as [E H]. eapply B; [exact E|apply H|]. intros; apply IH.
    - destruct (create_edge_spec m e) as [E H]. eapply B; [exact E|apply H|]. intros; apply IH.
    - apply (steps_bind _ (fold_left g_bulk_item items) (set_vprops_spec m [id] name value)). intros; apply IH.
    - apply (steps_bind _ (fold_left g_bulk_item items) (set_eprops_spec m [e] name value)). intros; apply IH.
  Qed.

  (** *** Indexing *)

  Section Fold.
    Context {A : Type}.
    Variable f : A -> option json.
    Variable mk : A -> member.
    Lemma fold_index l : forall c,
      (c_ok c -> c_ok (fold_left (fun c a => match f a with Some v => c_update v (add (mk a)) c | None => c end) l c)) /\
      forall w mb,
        c_has (fold_left (fun c a => match f a with Some v => c_update v (add (mk a)) c | None => c end) l c) w mb = true <->
        (exists a v, In a l /\ f a = Some v /\ key_eq v w = true /\ mb = mk a) \/ c_has c w mb = true.
    Proof.
      induction l as [|a l IH]; intros c; cbn [fold_left].
      - split; [auto|]. intros w mb. split; [auto|]. intros [(a & v & [] & _)|H]; assumption.
      - destruct (f a) as [v|] eqn:E.
        + destruct (IH (c_update v (add (mk a)) c)) as [IO IH']. split.
          * intros C. apply IO. now apply c_ok_update.
          * intros w mb. rewrite IH', c_has_add, orb_true_iff, andb_true_iff, eqb_eq. cbn [In]. split.
            -- intros [(b & u & Hb & Hr)|[[Hk ->]|H]]; [left; exists b, u; auto|left; exists a, v; auto|auto].
            -- intros [(b & u & [<-|Hb] & Hu & Hr)|H]; [|left; exists b, u; auto|auto].
               right; left. assert (u = v) by congruence. subst. tauto.
        + destruct (IH c) as [IO IH']. split; [exact IO|]. intros w mb. rewrite IH'. cbn [In]. split.
          * intros [(b & u & Hb & Hr)|H]; [left; exists b, u; auto|auto].
          * intros [(b & u & [<-|Hb] & Hu & Hr)|H]; [congruence|left; exists b, u; auto|auto].
    Qed.
  End Fold.

  (** Whether the element of a member exists. *)
  Definition present (m : memory) (mb : member) : bool :=
    match mb with MVertex id => mem id (m_vertices m) | MEdge e => mem e (m_edges m) end.

  Lemma index_fresh_spec m n :
    c_ok (index_fresh m n) /\
    forall w mb, c_has (index_fresh m n) w mb = true <->
      present m mb = true /\ exists v, mprop m mb n = Some v /\ key_eq v w = true.
  Proof.
    unfold index_fresh.
    set (c1 := fold_left (fun (c : container) (id : uuid) =>
           match get (id, n) (m_vprops m) with
           | Some v => c_update v (add (MVertex id)) c
           | None => c
           end) (keys (m_vertices m)) []).
    destruct (@fold_index uuid (fun id => get (id, n) (m_vprops m)) MVertex (keys (m_vertices m)) []) as [O1 H1].
    fold c1 in O1, H1.
    destruct (@fold_index edge (fun e => get (e, n) (m_eprops m)) MEdge (keys (m_edges m)) c1) as [O2 H2].
    split; [apply O2, O1; constructor|].
    intros w mb. rewrite H2, H1. split.
    - intros [(e & v & Hin & Hv & Hk & ->)|[(i & v & Hin & Hv & Hk & ->)|H]].
      + apply keys_In in Hin. cbn. eauto.
      + apply keys_In in Hin. cbn. eauto.
      + unfold c_has in H. cbn in H. discriminate.
    - intros [Hp (v & Hv & Hk)]. destruct mb as [i|e]; cbn in *.
      + right; left. exists i, v. rewrite keys_In. auto.
      + left. exists e, v. rewrite keys_In. auto.
  Qed.

  Lemma merge_spec fresh : c_ok fresh -> forall old,
    (c_ok old -> c_ok (merge_container old fresh)) /\
    forall w mb, c_has (merge_container old fresh) w mb = c_has fresh w mb || c_has old w mb.
  Proof.
    unfold merge_container. induction 1 as [|[k ms] fresh Hh Ht IH]; intros old; cbn [fold_left fst snd].
    - split; [auto|]. reflexivity.
    - destruct (IH (c_update k (fun s => fold_left (fun s x => add x s) (keys ms) s) old)) as [IO IH'].
      split; [intros C; apply IO; now apply c_ok_update|].
      intros w mb. rewrite IH', c_has_add_all. unfold c_has at 3. cbn [c_get].
      assert (inb mb (keys ms) = mem mb ms) as ->.
      { destruct (mem mb ms) eqn:E; [now apply inb_In, keys_In|].
        apply inb_not_In. rewrite keys_In. congruence. }
      destruct (key_eq k w) eqn:E; [|now rewrite orb_false_l || reflexivity].
      assert (c_has fresh w mb = false) as ->; [|reflexivity].
      destruct (c_has fresh w mb) eqn:F; [exfalso|reflexivity].
      unfold c_has in F. destruct (c_get w fresh) as [ms'|] eqn:G; [|discriminate].
      apply c_get_In in G as (k' & Hk' & E'). rewrite Forall_forall in Hh. specialize (Hh _ Hk'). cbn in Hh.
      rewrite key_eq_sym in E'. now rewrite (key_eq_trans _ _ _ E E') in Hh.
  Qed.

  Lemma index_property_spec m n :
    let x := mem_index_property m n in
    fst x = Ok tt /\ gof (snd x) = g_index_property (gof m) n /\
    (cok m -> cok (snd x)) /\
    (no_orphans (gof m) -> complete m -> complete (snd x)) /\
    (sound m -> sound (snd x)) /\ (mirror m -> mirror (snd x)).
  Proof.
    cbn zeta. unfold mem_index_property. cbn [fst snd].
    set (old := match get n (m_index m) with Some c => c | None => [] end).
    destruct (index_fresh_spec m n) as [FO FH]. destruct (merge_spec FO old) as [MO MH].
    conj; auto.
    - unfold gof, g_index_property, with_index. cbn [m_vertices m_edges m_vprops m_eprops m_index gv ge gvp gep gix].
      f_equal. apply oset_ext. intros k. now rewrite mem_add, !mem_dom, mem_set.
    - intros C n' c' H. cbn [with_index m_index] in H. rewrite get_set in H.
      destruct (eqb n' n); [|eauto]. inversion H; subst. apply MO. unfold old.
      destruct (get n (m_index m)) eqn:E; [eauto|constructor].
    - intros NO C n' c' mb x H Hp. cbn [with_index m_index] in H. change (mprop m mb n' = Some x) in Hp.
      rewrite get_set in H. destruct (eqb n' n) eqn:En; [|eauto]. apply eqb_eq in En. subst n'.
      inversion H; subst c'. rewrite MH. apply orb_true_iff. left. apply FH. split.
      + destruct mb; cbn in *; [eapply (no_vorphan NO)|eapply (no_eorphan NO)]; eauto.
      + exists x. rewrite key_eq_refl. auto.
    - intros S n' c' w mb H Hh. cbn [with_index m_index] in H. change (exists x, mprop m mb n' = Some x /\ key_eq x w = true).
      rewrite get_set in H. destruct (eqb n' n) eqn:En; [|eapply S; eauto]. apply eqb_eq in En. subst n'.
      inversion H; subst c'. rewrite MH in Hh. apply orb_true_iff in Hh as [Hh|Hh].
      + now apply FH in Hh as [_ Hh].
      + unfold old in Hh. destruct (get n (m_index m)) as [c|] eqn:E; [eapply S; eauto|].
        unfold c_has in Hh. cbn in Hh. discriminate.
  Qed.
End Build.
