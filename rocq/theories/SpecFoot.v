(** * On the abstract graph: calls stay within their footprint, and independent calls commute *)
From Verif Require Import Base OMap Json Types Util Db Rdb Spec QueryFacts SpecFacts RdbSpec JsonFacts MemFacts Conc Foot Agree.

Set Implicit Arguments.

(** [g] and [g'] have the same [x]. *)
Definition same_part (g g' : graph) (x : part) : Prop :=
  match x with
  | AVertex id => get id (gv g') = get id (gv g)
  | AnEdge e => mem e (ge g') = mem e (ge g)
  | AVProp id n => get (id, n) (gvp g') = get (id, n) (gvp g)
  | AnEProp e n => get (e, n) (gep g') = get (e, n) (gep g)
  end.
Definition same_on (P : part -> Prop) (g g' : graph) : Prop := gix g' = gix g /\ forall x, P x -> same_part g g' x.

Lemma unit_ext (a b : option unit) : (match a with Some _ => true | None => false end) = (match b with Some _ => true | None => false end) -> a = b.
Proof. destruct a as [[]|], b as [[]|]; easy. Qed.

Lemma same_everywhere g g' : gix g' = gix g -> (forall x, same_part g g' x) -> g' = g.
Proof.
  intros Ix X. destruct g as [a b c d i], g' as [a' b' c' d' i']. cbn in Ix. f_equal; [| | | |exact Ix]; apply omap_ext.
  - intros id. exact (X (AVertex id)).
  - intros e. pose proof (X (AnEdge e)) as M. cbn in M. destruct (mem e b) eqn:E.
    + apply mem_get in E as ([] & E), M as ([] & M). congruence.
    + apply mem_false in E, M. congruence.
  - intros [id n]. exact (X (AVProp id n)).
  - intros [e n]. exact (X (AnEProp e n)).
Qed.
Lemma same_refl P g : same_on P g g.
Proof. split; [reflexivity|]. now intros [] _. Qed.
Lemma same_part_sym g g' x : same_part g g' x -> same_part g' g x.
Proof. destruct x; cbn; congruence. Qed.
Lemma same_part_trans g g' g'' x : same_part g g' x -> same_part g' g'' x -> same_part g g'' x.
Proof. destruct x; cbn; congruence. Qed.
Lemma same_sym P g g' : same_on P g g' -> same_on P g' g.
Proof. intros [Ix X]. split; [congruence|]. intros x Px. now apply same_part_sym, X. Qed.
Lemma same_sub (P Q : part -> Prop) g g' : same_on P g g' -> (forall x, Q x -> P x) -> same_on Q g g'.
Proof. intros [Ix X] S. split; auto. Qed.

(** ** Queries *)

(** What a result consists of. *)
Definition consists (v : outv) (x : part) : Prop :=
  match v with
  | Vertices l => exists y, In y l /\ x = AVertex (vid y)
  | Edges l => exists y, In y l /\ x = AnEdge y
  | VertexProperties l => exists y p, In y l /\ In p (vp_props y) /\ x = AVProp (vid (vp_vertex y)) (np_name p)
  | EdgeProperties l => exists y p, In y l /\ In p (ep_props y) /\ x = AnEProp (ep_edge y) (np_name p)
  | Count _ => False
  end.

Lemma keeps_In {A} (P : A -> Prop) l l' x : keeps P l l' -> In x l' -> In x l.
Proof. induction 1 as [|y l l' _ K IH|y l l' _ K IH]; cbn; auto. intros [->|Hx]; auto. Qed.
Lemma keeps_ext {A} (P P' : A -> Prop) l l' : (forall x, In x l -> (P x <-> P' x)) -> keeps P l l' -> keeps P' l l'.
Proof.
  intros E K. induction K as [|y l l' Py K IH|y l l' Py K IH]; [constructor|apply keeps_yes|apply keeps_no];
    try (apply IH; intros x Hx; apply E; now right).
  - apply E; [now left|exact Py].
  - intros Q. apply Py. apply E; [now left|exact Q].
Qed.
Lemma found_In g id v : In v (found g id) -> vid v = id /\ is_vertex g v.
Proof.
  unfold found. destruct (get id (gv g)) as [t|] eqn:E; [|intros []]. intros [<-|[]]. cbn. now split.
Qed.
Lemma flat_map_ext_in {A B} (f f' : A -> list B) l : (forall x, In x l -> f x = f' x) -> flat_map f l = flat_map f' l.
Proof. induction l as [|x l IH]; cbn; intros E; [reflexivity|]. rewrite E, IH; auto. Qed.
Lemma limited_In {A} n (l : list A) x : In x (limited n l) -> In x l.
Proof. intros Hx. unfold limited in Hx. rewrite <- (firstn_skipn (N.to_nat n) l). apply in_or_app. now left. Qed.
Lemma listing_ext {A} (R : A -> A -> Prop) P P' l : (forall x, P x <-> P' x) -> listing R P l -> listing R P' l.
Proof. intros E [S I]. split; [exact S|]. intros x. now rewrite I. Qed.

Section Queries.
  Variable tlt : ident -> ident -> Prop.
  Variable vmatch : json -> json -> Prop.
  Notation evals := (evals tlt vmatch).
  Notation fails := (fails tlt vmatch).

  Lemma evals_yields g q ex v : evals g q ex v -> forall x, consists v x -> yields q x.
  Proof.
    induction 1 as [l Hl|lim t st l Hl|ids|n l Hi Nd Hl|n y l Hi Nd Hl|l Hl|es l Hl|n l Hi Nd Hl|n y l Hi Nd Hl
      |q d lim t ex es l E IH K|q d lim t ex vs ls E IH K|q name ex vs pss E IH K|q name ex es pss E IH K
      |q n ok ex vs l E IH Hi K|q n ok ex es l E IH Hi K|q n y ok ex vs l E IH Hi K|q n y ok ex es l E IH Hi K|q ex v E IH|q ex v n E IH Sz];
      intros x C; cbn [consists yields] in *; eauto.
    - destruct C as (v & _ & ->). eauto.
    - destruct C as (v & _ & ->). eauto.
    - destruct C as (v & Hv & ->). apply in_flat_map in Hv as (id & Hid & Hv). apply found_In in Hv as [-> _]. eauto.
    - destruct C as (v & _ & ->). eauto.
    - destruct C as (v & _ & ->). eauto.
    - destruct C as (v & _ & ->). eauto.
    - destruct C as (v & Hv & ->). exists v. split; [|reflexivity]. eapply keeps_In; eauto.
    - destruct C as (v & _ & ->). eauto.
    - destruct C as (v & _ & ->). eauto.
    - left. destruct C as (v & Hv & ->). apply limited_In in Hv. apply (keeps_In _ K) in Hv. apply in_flat_map in Hv as (id & Hid & Hv).
      apply found_In in Hv as [-> _]. apply in_map_iff in Hid as (e & <- & He). exists e. split; [apply IH; eauto|reflexivity].
    - right. destruct C as (e & He & ->). apply limited_In in He. exists e. split; [|reflexivity]. apply in_concat in He as (l & Hl & He).
      apply IH. clear IH E. induction K as [|v l' vs ls Hv K IH]; [destruct Hl|]. destruct Hl as [->|Hl].
      + exists v. split; [now left|]. apply Hv in He as (_ & Ep & _). unfold endpoint in Ep. now rewrite Ep.
      + destruct (IH Hl) as (w & Hw & Ew). exists w. split; [now right|exact Ew].
    - left. destruct C as (y & p & Hy & Hp & ->). apply in_flat_map in Hy as ([v ps] & Hc & Hy). unfold nonempty_v in Hy. cbn [fst snd] in Hy.
      destruct ps as [|p0 ps]; [destruct Hy|]. destruct Hy as [<-|[]]. cbn [vp_vertex vp_props] in *.
      exists (vid v), (np_name p). split; [apply IH; exists v; split; [eapply in_combine_l; eauto|reflexivity]|]. split; [|reflexivity].
      clear IH E. induction K as [|v' l' vs ls Hv K IH]; [destruct Hc|]. destruct Hc as [Ec|Hc]; [|now apply IH].
      injection Ec as -> ->. apply Hv in Hp as (_ & Hn). unfold named. destruct name as [n|]; [right; congruence|now left].
    - right. destruct C as (y & p & Hy & Hp & ->). apply in_flat_map in Hy as ([v ps] & Hc & Hy). unfold nonempty_e in Hy. cbn [fst snd] in Hy.
      destruct ps as [|p0 ps]; [destruct Hy|]. destruct Hy as [<-|[]]. cbn [ep_edge ep_props] in *.
      exists v, (np_name p). split; [apply IH; exists v; split; [eapply in_combine_l; eauto|reflexivity]|]. split; [|reflexivity].
      clear IH E. induction K as [|v' l' vs ls Hv K IH]; [destruct Hc|]. destruct Hc as [Ec|Hc]; [|now apply IH].
      injection Ec as -> ->. apply Hv in Hp as (_ & Hn). unfold named. destruct name as [n|]; [right; congruence|now left].
    - apply IH. destruct C as (v & Hv & ->). exists v. split; [|reflexivity]. eapply keeps_In; eauto.
    - apply IH. destruct C as (v & Hv & ->). exists v. split; [|reflexivity]. eapply keeps_In; eauto.
    - apply IH. destruct C as (v & Hv & ->). exists v. split; [|reflexivity]. eapply keeps_In; eauto.
    - apply IH. destruct C as (v & Hv & ->). exists v. split; [|reflexivity]. eapply keeps_In; eauto.
  Qed.

  Section Two.
    Variables g g' : graph.

    Lemma vertex_same id : same_part g g' (AVertex id) -> found g' id = found g id.
    Proof. cbn. unfold found. now intros ->. Qed.
    Lemma is_vertex_same v : same_part g g' (AVertex (vid v)) -> is_vertex g v <-> is_vertex g' v.
    Proof. cbn. unfold is_vertex. now intros ->. Qed.
    Lemma is_edge_same e : same_part g g' (AnEdge e) -> is_edge g e <-> is_edge g' e.
    Proof. cbn. unfold is_edge. now intros ->. Qed.
    Lemma vprop_same v n : same_part g g' (AVProp (vid v) n) -> vprop_fn g' v n = vprop_fn g v n.
    Proof. now unfold vprop_fn. Qed.
    Lemma eprop_same e n : same_part g g' (AnEProp e n) -> eprop_fn g' e n = eprop_fn g e n.
    Proof. now unfold eprop_fn. Qed.
    Lemma props_at_same (p p' : ident -> option json) name l : (forall n, named name n -> p' n = p n) -> props_at p name l -> props_at p' name l.
    Proof.
      intros E. apply listing_ext. intros x. unfold named in E. destruct name as [n|].
      - split; intros [X Y]; (split; [|exact Y]); [rewrite E|rewrite <- E]; auto; right; congruence.
      - rewrite E by auto. tauto.
    Qed.

    Lemma evals_same q ex v : evals g q ex v -> same_on (looks_at q) g g' -> evals g' q ex v.
    Proof.
      induction 1 as [l Hl|lim t st l Hl|ids|n l Hi Nd Hl|n y l Hi Nd Hl|l Hl|es l Hl|n l Hi Nd Hl|n y l Hi Nd Hl
        |q d lim t ex es l E IH K|q d lim t ex vs ls E IH K|q name ex vs pss E IH K|q name ex es pss E IH K
        |q n ok ex vs l E IH Hi K|q n ok ex es l E IH Hi K|q n y ok ex vs l E IH Hi K|q n y ok ex es l E IH Hi K|q ex v E IH|q ex v n E IH Sz];
        intros [Ix S]; cbn [looks_at] in S; try (assert (indexed g' n) as Hi' by (unfold indexed; rewrite Ix; exact Hi)).
      - constructor. eapply listing_ext; [|exact Hl]. intros v. apply is_vertex_same, S. cbn. eauto.
      - constructor. eapply listing_ext; [|exact Hl]. intros v. cbv beta. rewrite (@is_vertex_same v); [tauto|]. apply S. cbn. eauto.
      - rewrite (flat_map_ext_in (found g) (found g') ids). 2:{ intros id Hid. symmetry. apply vertex_same, S. cbn. eauto. } constructor.
      - constructor; auto. intros v. rewrite Hl, (@is_vertex_same v) by (apply S; left; eauto). unfold has.
        rewrite (@vprop_same v n); [tauto|]. apply S. right. left. eauto.
      - constructor; auto. intros v. rewrite Hl, (@is_vertex_same v) by (apply S; left; eauto). unfold has_value.
        rewrite (@vprop_same v n); [tauto|]. apply S. right. left. eauto.
      - constructor. eapply listing_ext; [|exact Hl]. intros v. apply is_edge_same, S. cbn. eauto.
      - constructor. eapply keeps_ext; [|exact Hl]. intros e He. apply is_edge_same, S. cbn. eauto.
      - constructor; auto. intros e. rewrite Hl, (@is_edge_same e) by (apply S; right; eauto). unfold has.
        rewrite (@eprop_same e n); [tauto|]. apply S. left. right. right. eauto.
      - constructor; auto. intros e. rewrite Hl, (@is_edge_same e) by (apply S; right; eauto). unfold has_value.
        rewrite (@eprop_same e n); [tauto|]. apply S. left. right. right. eauto.
      - assert (evals g' q ex (Edges es)) as E1 by (apply IH; split; [exact Ix|]; intros x Hx; apply S; now left).
        econstructor; [exact E1|]. rewrite (flat_map_ext_in (found g') (found g)); [exact K|].
        intros id Hid. apply in_map_iff in Hid as (e & <- & He). apply vertex_same, S. right. left. exists e. split; [|reflexivity].
        apply (evals_yields E). cbn. eauto.
      - assert (evals g' q ex (Vertices vs)) as E1 by (apply IH; split; [exact Ix|]; intros x Hx; apply S; now left).
        econstructor; [exact E1|]. eapply Forall2_impl_In; [|exact K]. intros v l Hv _. cbv beta. apply listing_ext. intros e.
        assert (endpoint d e = vid v -> is_edge g e <-> is_edge g' e) as X; [|tauto]. intros Ep. apply is_edge_same, S. right. right. exists e.
        split; [|reflexivity]. apply (evals_yields E). exists v. split; [exact Hv|]. unfold endpoint in Ep. now rewrite Ep.
      - assert (evals g' q ex (Vertices vs)) as E1 by (apply IH; split; [exact Ix|]; intros x Hx; apply S; now left).
        econstructor; [exact E1|]. eapply Forall2_impl_In; [|exact K]. intros v l Hv _. cbv beta. apply props_at_same. intros n Nn. apply vprop_same, S.
        right. left. exists (vid v), n. split; [|now split]. apply (evals_yields E). cbn. eauto.
      - assert (evals g' q ex (Edges es)) as E1 by (apply IH; split; [exact Ix|]; intros x Hx; apply S; now left).
        econstructor; [exact E1|]. eapply Forall2_impl_In; [|exact K]. intros v l Hv _. cbv beta. apply props_at_same. intros n Nn. apply eprop_same, S.
        right. right. exists v, n. split; [|now split]. apply (evals_yields E). cbn. eauto.
      - econstructor; [apply IH; split; [exact Ix|]; intros x Hx; apply S; now left|exact Hi'|].
        eapply keeps_ext; [|exact K]. intros v Hv. apply flag_iff. unfold has. rewrite (@vprop_same v n); [tauto|]. apply S. right. right. left. eauto.
      - econstructor; [apply IH; split; [exact Ix|]; intros x Hx; apply S; now left|exact Hi'|].
        eapply keeps_ext; [|exact K]. intros v Hv. apply flag_iff. unfold has. rewrite (@eprop_same v n); [tauto|]. apply S. right. right. right. eauto.
      - econstructor; [apply IH; split; [exact Ix|]; intros x Hx; apply S; now left|exact Hi'|].
        eapply keeps_ext; [|exact K]. intros v Hv. apply flag_iff. unfold has_value. rewrite (@vprop_same v n); [tauto|]. apply S. right. right. left. eauto.
      - econstructor; [apply IH; split; [exact Ix|]; intros x Hx; apply S; now left|exact Hi'|].
        eapply keeps_ext; [|exact K]. intros v Hv. apply flag_iff. unfold has_value. rewrite (@eprop_same v n); [tauto|]. apply S. right. right. right. eauto.
      - constructor. apply IH. now split.
      - econstructor; [|exact Sz]. apply IH. now split.
    Qed.
  End Two.

  Lemma looks_inner q i : inner_of q = Some i -> forall x, looks_at i x -> looks_at q x.
  Proof. destruct q; cbn; intros E; inversion E; subst; auto. Qed.

  Lemma fails_same g g' q e : fails g q e -> same_on (looks_at q) g g' -> fails g' q e.
  Proof.
    intros F. induction F as [q i e Hi F IH|q i ex v Hi E Ac|q n Hi Hx N|q i n ex v Hi E Ac Hx N]; intros S.
    - eapply fail_inner; [exact Hi|]. apply IH. eapply same_sub; [exact S|]. now apply looks_inner.
    - eapply fail_kind; [exact Hi| |exact Ac]. eapply evals_same; [exact E|]. eapply same_sub; [exact S|]. now apply looks_inner.
    - eapply fail_leaf; eauto. unfold indexed in *. destruct S as [-> _]. exact N.
    - eapply fail_stage; [exact Hi| |exact Ac|exact Hx|].
      + eapply evals_same; [exact E|]. eapply same_sub; [exact S|]. now apply looks_inner.
      + unfold indexed in *. destruct S as [-> _]. exact N.
  Qed.

  Theorem resolves_same g g' o r a : (forall n, o <> OIndexProperty n) -> same_on (depends o) g g' -> resolves tlt vmatch g o r a -> resolves tlt vmatch g' o r a.
  Proof.
    intros NI S R.
    assert (forall id, depends o (AVertex id) -> mem id (gv g') = mem id (gv g)) as Mv.
    { intros id D. pose proof (proj2 S _ D) as X. cbn in X. destruct (mem id (gv g)) eqn:M.
      - apply mem_get in M as (t & M). apply mem_get. exists t. congruence.
      - apply mem_false in M. apply mem_false. congruence. }
    destruct R as [v|id t M|id t M|e|q ex v E|q e E|q ex vs E|q ex es E|q ex l E|q ex l E|q ex n E|q e E|q n x ex vs E|q n x ex es E
      |q n x ex v E K|q n x e E|items|n| |vs|es|ps|ps|ids n x|es n x]; cbn [depends alters] in *;
      try (econstructor; fail);
      try (econstructor; try eassumption; (eapply evals_same || eapply fails_same); [eassumption|]; eapply same_sub; [exact S|]; intros ? ?; cbn [depends]; auto; fail).
    - rewrite <- Mv by reflexivity. constructor.
    - constructor. now rewrite Mv.
    - constructor. now rewrite Mv.
    - rewrite <- !Mv by auto. constructor.
  Qed.
End Queries.

(** ** Effects *)

(** What an action writes, and whose previous contents its effect elsewhere
    depends on. *)
Definition acts (a : action) (x : part) : Prop :=
  match a with
  | ANone => False
  | ACreateVertex v => x = AVertex (vid v)
  | ACreateEdge e => x = AnEdge e
  | ADeleteVertices ids => exists id, In id ids /\ goes_with (AVertex id) x
  | ADeleteEdges es => exists e, In e es /\ goes_with (AnEdge e) x
  | ADeleteVProps ps => exists p, In p ps /\ x = AVProp (fst p) (snd p)
  | ADeleteEProps ps => exists p, In p ps /\ x = AnEProp (fst p) (snd p)
  | ASetVProps ids n _ => exists id, In id ids /\ x = AVProp id n
  | ASetEProps es n _ => exists e, In e es /\ x = AnEProp e n
  | ABulk items => exists it, In it items /\ x = puts it
  | AIndex _ => True
  end.
Definition needs_item (it : bulk_item) (x : part) : Prop :=
  match it with
  | BVertex v => x = AVertex (vid v)
  | BEdge e => x = AVertex (eout e) \/ x = AVertex (ein e)
  | _ => False
  end.
Definition needs (a : action) (x : part) : Prop :=
  match a with
  | ACreateVertex v => x = AVertex (vid v)
  | ACreateEdge e => x = AVertex (eout e) \/ x = AVertex (ein e)
  | ADeleteVertices ids => exists id e, In id ids /\ touches e id /\ x = AnEdge e
  | ABulk items => exists it, In it items /\ needs_item it x
  | _ => False
  end.

Lemma same_mem g g' id : same_part g g' (AVertex id) -> mem id (gv g') = mem id (gv g).
Proof.
  cbn. intros X. destruct (mem id (gv g)) eqn:M.
  - apply mem_get in M as (t & M). apply mem_get. exists t. congruence.
  - apply mem_false in M. apply mem_false. congruence.
Qed.
Lemma incident_touches ids e : incident ids e = true -> exists id, In id ids /\ touches e id.
Proof.
  unfold incident. intros X. apply orb_true_iff in X as [X|X]; apply inb_In in X; eexists; (split; [exact X|]); [left|right]; reflexivity.
Qed.
Lemma touches_incident ids e id : In id ids -> touches e id -> incident ids e = true.
Proof. unfold incident. intros Hi [<-|<-]; apply orb_true_iff; [left|right]; now apply inb_In. Qed.

Lemma create_vertex_frame g v x : x <> AVertex (vid v) -> same_part g (g_create_vertex g v) x.
Proof.
  intros N. unfold g_create_vertex. destruct (mem (vid v) (gv g)); [now destruct x|]. destruct x; cbn; auto.
  apply get_set_other. congruence.
Qed.
Lemma create_edge_frame g e x : x <> AnEdge e -> same_part g (g_create_edge g e) x.
Proof.
  intros N. unfold g_create_edge. destruct (mem (eout e) (gv g) && mem (ein e) (gv g)); [|now destruct x]. destruct x as [|f| |]; cbn; auto.
  rewrite mem_add. destruct (eqb f e) eqn:E; [apply eqb_eq in E; congruence|reflexivity].
Qed.
Lemma set_vps_frame g ids n v x : ~ (exists id, In id ids /\ x = AVProp id n) -> same_part g (g_set_vertex_properties g ids n v) x.
Proof.
  intros N. destruct x as [|f|id m|]; cbn; auto. rewrite get_fold_set. cbn [fst snd]. destruct (inb id ids && eqb m n) eqn:E; [|reflexivity].
  apply andb_true_iff in E as [E1 E2]. apply inb_In in E1. apply eqb_eq in E2. subst. destruct N. eauto.
Qed.
Lemma set_eps_frame g es n v x : ~ (exists e, In e es /\ x = AnEProp e n) -> same_part g (g_set_edge_properties g es n v) x.
Proof.
  intros N. destruct x as [|f| |e m]; cbn; auto. rewrite get_fold_set. cbn [fst snd]. destruct (inb e es && eqb m n) eqn:E; [|reflexivity].
  apply andb_true_iff in E as [E1 E2]. apply inb_In in E1. apply eqb_eq in E2. subst. destruct N. eauto.
Qed.

Lemma bulk_frame items : forall g x, ~ (exists it, In it items /\ x = puts it) -> gix (g_bulk_insert g items) = gix g /\ same_part g (g_bulk_insert g items) x.
Proof.
  unfold g_bulk_insert. induction items as [|it items IH]; intros g x N; cbn [fold_left]; [split; [reflexivity|now destruct x]|].
  destruct (IH (g_bulk_item g it) x) as [I1 I2]. { intros (it' & Hi & E). apply N. exists it'. split; [now right|exact E]. }
  assert (x <> puts it) as Nx by (intros ->; apply N; exists it; split; [now left|reflexivity]). clear N.
  assert (gix (g_bulk_item g it) = gix g) as I0.
  { destruct it as [v|e|id n v|e n v]; cbn; auto.
    - unfold g_create_vertex. now destruct (mem (vid v) (gv g)).
    - unfold g_create_edge. now destruct (mem (eout e) (gv g) && mem (ein e) (gv g)). }
  split; [congruence|]. eapply same_part_trans; [|exact I2]. destruct it as [v|e|id n v|e n v]; cbn [puts g_bulk_item] in *.
  - now apply create_vertex_frame.
  - now apply create_edge_frame.
  - apply set_vps_frame. intros (i & [<-|[]] & ->). now apply Nx.
  - apply set_eps_frame. intros (i & [<-|[]] & ->). now apply Nx.
Qed.

(** Outside of what it writes, an action changes nothing. *)
Lemma act_frame g a : (forall n, a <> AIndex n) -> gix (g_apply g a) = gix g /\ forall x, ~ acts a x -> same_part g (g_apply g a) x.
Proof.
  intros NI. destruct a as [|v|e|ids|es|ps|ps|ids n v|es n v|items|n]; cbn [g_apply acts].
  - apply (same_refl (fun x => ~ False)).
  - split; [unfold g_create_vertex; now destruct (mem (vid v) (gv g))|]. intros x N. now apply create_vertex_frame.
  - split; [unfold g_create_edge; now destruct (mem (eout e) (gv g) && mem (ein e) (gv g))|]. intros x N. now apply create_edge_frame.
  - split; [reflexivity|]. intros x N. destruct x as [id|e|id n|e n]; cbn -[incident].
    + rewrite (get_filt_key (fun k => negb (inb k ids))). destruct (inb id ids) eqn:E; [|reflexivity]. apply inb_In in E. destruct N. exists id. cbn. auto.
    + rewrite (mem_filt (fun k => negb (incident ids k))). destruct (incident ids e) eqn:E; [|now rewrite andb_true_r || reflexivity].
      apply incident_touches in E as (id & Hi & T). destruct N. exists id. split; [exact Hi|]. right. right. exists e. auto.
    + rewrite (get_filt_key (fun k => negb (inb (fst k) ids))). cbn [fst]. destruct (inb id ids) eqn:E; [|reflexivity]. apply inb_In in E. destruct N. exists id. cbn. eauto.
    + rewrite (get_filt_key (fun k => negb (incident ids (fst k) && mem (fst k) (ge g)))). cbn [fst].
      destruct (incident ids e) eqn:E; [|reflexivity]. apply incident_touches in E as (id & Hi & T). destruct N. exists id. split; [exact Hi|]. right. right. exists e. eauto.
  - split; [reflexivity|]. intros x N. destruct x as [id|e|id n|e n]; cbn; auto.
    + rewrite (mem_filt (fun k => negb (inb k es))). destruct (inb e es) eqn:E; [|now rewrite andb_true_r || reflexivity].
      apply inb_In in E. destruct N. exists e. cbn. auto.
    + rewrite (get_filt_key (fun k => negb (inb (fst k) es))). cbn [fst]. destruct (inb e es) eqn:E; [|reflexivity]. apply inb_In in E. destruct N. exists e. cbn. eauto.
  - split; [reflexivity|]. intros x N. destruct x as [id|e|id n|e n]; cbn; auto.
    rewrite (get_filt_key (fun k => negb (inb k ps))). destruct (inb (id, n) ps) eqn:E; [|reflexivity]. apply inb_In in E. destruct N. exists (id, n). auto.
  - split; [reflexivity|]. intros x N. destruct x as [id|e|id n|e n]; cbn; auto.
    rewrite (get_filt_key (fun k => negb (inb k ps))). destruct (inb (e, n) ps) eqn:E; [|reflexivity]. apply inb_In in E. destruct N. exists (e, n). auto.
  - split; [reflexivity|]. intros x N. now apply set_vps_frame.
  - split; [reflexivity|]. intros x N. now apply set_eps_frame.
  - split; [|intros x N; now apply bulk_frame].
    clear NI. unfold g_bulk_insert. revert g. induction items as [|it items IH]; intros g; cbn [fold_left]; [reflexivity|]. rewrite IH.
    destruct it as [v|e|id n v|e n v]; cbn; auto.
    + unfold g_create_vertex. now destruct (mem (vid v) (gv g)).
    + unfold g_create_edge. now destruct (mem (eout e) (gv g) && mem (ein e) (gv g)).
  - now destruct (NI n).
Qed.

Lemma create_vertex_same P g g' v : same_on P g g' -> P (AVertex (vid v)) -> same_on P (g_create_vertex g v) (g_create_vertex g' v).
Proof.
  intros [Ix X] Pv. unfold g_create_vertex. rewrite (@same_mem g g' (vid v)) by now apply X. destruct (mem (vid v) (gv g)); [now split|].
  split; [exact Ix|]. intros x Px. pose proof (X x Px) as Y. destruct x; cbn in *; auto. rewrite !get_set. now destruct (eqb _ _).
Qed.
Lemma create_edge_same (P : part -> Prop) g g' e : same_on P g g' -> P (AVertex (eout e)) -> P (AVertex (ein e)) -> same_on P (g_create_edge g e) (g_create_edge g' e).
Proof.
  intros [Ix X] Po Pi. unfold g_create_edge. rewrite (@same_mem g g' (eout e)), (@same_mem g g' (ein e)) by now apply X.
  destruct (mem (eout e) (gv g) && mem (ein e) (gv g)); [|now split].
  split; [exact Ix|]. intros x Px. pose proof (X x Px) as Y. destruct x; cbn in *; auto. rewrite !mem_add. congruence.
Qed.
Lemma set_vps_same P g g' ids n v : same_on P g g' -> same_on P (g_set_vertex_properties g ids n v) (g_set_vertex_properties g' ids n v).
Proof.
  intros [Ix X]. split; [exact Ix|]. intros x Px. pose proof (X x Px) as Y. destruct x; cbn in *; auto. rewrite !get_fold_set. now destruct (_ && _).
Qed.
Lemma set_eps_same P g g' es n v : same_on P g g' -> same_on P (g_set_edge_properties g es n v) (g_set_edge_properties g' es n v).
Proof.
  intros [Ix X]. split; [exact Ix|]. intros x Px. pose proof (X x Px) as Y. destruct x; cbn in *; auto. rewrite !get_fold_set. now destruct (_ && _).
Qed.

(** An action has the same effect on graphs that agree on what it needs. *)
Lemma act_same (P : part -> Prop) g g' a : same_on P g g' -> (forall x, needs a x -> P x) -> same_on P (g_apply g a) (g_apply g' a).
Proof.
  intros [Ix X] N. destruct a as [|v|e|ids|es|ps|ps|ids n v|es n v|items|n]; cbn [g_apply needs] in *.
  - now split.
  - apply create_vertex_same; [now split|auto].
  - apply create_edge_same; [now split|auto|auto].
  - split; [exact Ix|]. intros x Px. pose proof (X x Px) as Y. destruct x as [id|e|id n|e n]; cbn -[incident] in *.
    + rewrite !(get_filt_key (fun k => negb (inb k ids))). now rewrite Y.
    + rewrite !(mem_filt (fun k => negb (incident ids k))). now rewrite Y.
    + rewrite !(get_filt_key (fun k => negb (inb (fst k) ids))). now rewrite Y.
    + rewrite (get_filt_key (fun k => negb (incident ids (fst k) && mem (fst k) (ge g)))),
        (get_filt_key (fun k => negb (incident ids (fst k) && mem (fst k) (ge g')))). cbn [fst]. rewrite Y.
      destruct (incident ids e) eqn:E; [|reflexivity]. apply incident_touches in E as (id & Hi & T).
      rewrite (X (AnEdge e)); [reflexivity|]. apply N. eauto 6.
  - split; [exact Ix|]. intros x Px. pose proof (X x Px) as Y. destruct x as [id|e|id n|e n]; cbn in *; auto.
    + rewrite !(mem_filt (fun k => negb (inb k es))). now rewrite Y.
    + rewrite !(get_filt_key (fun k => negb (inb (fst k) es))). now rewrite Y.
  - split; [exact Ix|]. intros x Px. pose proof (X x Px) as Y. destruct x as [id|e|id n|e n]; cbn in *; auto.
    rewrite !(get_filt_key (fun k => negb (inb k ps))). now rewrite Y.
  - split; [exact Ix|]. intros x Px. pose proof (X x Px) as Y. destruct x as [id|e|id n|e n]; cbn in *; auto.
    rewrite !(get_filt_key (fun k => negb (inb k ps))). now rewrite Y.
  - apply set_vps_same. now split.
  - apply set_eps_same. now split.
  - assert (same_on P g g') as S by now split. clear Ix X. unfold g_bulk_insert. revert g g' S. induction items as [|it items IH]; intros g g' S; cbn [fold_left]; [exact S|].
    apply IH.
    + intros x (it' & Hi & Nx). apply N. exists it'. split; [now right|exact Nx].
    + assert (forall x, needs_item it x -> P x) as N1 by (intros x Nx; apply N; exists it; split; [now left|exact Nx]). clear N IH.
      destruct it as [v|e|id n v|e n v]; cbn [g_bulk_item needs_item] in *.
      * apply create_vertex_same; auto.
      * apply create_edge_same; auto.
      * now apply set_vps_same.
      * now apply set_eps_same.
  - split; [cbn; congruence|]. intros x Px. pose proof (X x Px) as Y. now destruct x.
Qed.

Lemma vprop_keys_In l p : In p (vprop_keys l) -> consists (VertexProperties l) (AVProp (fst p) (snd p)).
Proof.
  intros Hp. apply in_flat_map in Hp as (y & Hy & Hp). apply in_map_iff in Hp as (z & <- & Hz). cbn. eauto 6.
Qed.
Lemma eprop_keys_In l p : In p (eprop_keys l) -> consists (EdgeProperties l) (AnEProp (fst p) (snd p)).
Proof.
  intros Hp. apply in_flat_map in Hp as (y & Hy & Hp). apply in_map_iff in Hp as (z & <- & Hz). cbn. eauto 6.
Qed.

Section Calls.
  Variable tlt : ident -> ident -> Prop.
  Variable vmatch : json -> json -> Prop.
  Notation resolves := (resolves tlt vmatch).

  Lemma resolves_acts g o r a : resolves g o r a -> forall x, acts a x -> alters o x.
  Proof.
    intros R x A. destruct R as [v|id t M|id t M|e|q ex v E|q e E|q ex vs E|q ex es E|q ex l E|q ex l E|q ex n E|q e E|q n y ex vs E|q n y ex es E
      |q n y ex v E K|q n y e E|items|n| |vs|es|ps|ps|ids n y|es n y]; cbn [acts alters] in *; auto; try contradiction.
    - destruct A as (id & Hi & G). apply in_map_iff in Hi as (v & <- & Hv). exists (AVertex (vid v)). split; [|exact G].
      apply (evals_yields E). cbn. eauto.
    - destruct A as (e & Hi & G). exists (AnEdge e). split; [|exact G]. apply (evals_yields E). cbn. eauto.
    - destruct A as (p & Hi & ->). exists (AVProp (fst p) (snd p)). split; [|now cbn]. apply (evals_yields E). now apply vprop_keys_In.
    - destruct A as (p & Hi & ->). exists (AnEProp (fst p) (snd p)). split; [|now cbn]. apply (evals_yields E). now apply eprop_keys_In.
    - destruct A as (id & Hi & ->). apply in_map_iff in Hi as (v & <- & Hv). exists (AVertex (vid v)). split; [|reflexivity].
      apply (evals_yields E). cbn. eauto.
    - destruct A as (e & Hi & ->). exists (AnEdge e). split; [|reflexivity]. apply (evals_yields E). cbn. eauto.
    - destruct A as (id & Hi & G). apply in_map_iff in Hi as (v & <- & Hv). eauto.
  Qed.

  Lemma resolves_needs g o r a : resolves g o r a -> forall x, needs a x -> depends o x.
  Proof.
    intros R x A. pose proof (resolves_acts R) as Ac.
    destruct R as [v|id t M|id t M|e|q ex v E|q e E|q ex vs E|q ex es E|q ex l E|q ex l E|q ex n E|q e E|q n y ex vs E|q n y ex es E
      |q n y ex v E K|q n y e E|items|n| |vs|es|ps|ps|ids n y|es n y]; cbn [needs depends] in *; auto; try contradiction.
    - left. apply Ac. destruct A as (id & e & Hi & T & ->). exists id. split; [exact Hi|]. right. right. exists e. auto.
    - destruct A as (it & Hi & Nx). destruct it as [v|e|id n v|e n v]; cbn in Nx; try contradiction.
      + left. exists (BVertex v). auto.
      + right. eauto.
    - apply Ac. destruct A as (id & e & Hi & T & ->). exists id. split; [exact Hi|]. right. right. exists e. auto.
  Qed.

  Lemma resolves_noindex g o r a : resolves g o r a -> (forall n, o <> OIndexProperty n) -> forall n, a <> AIndex n.
  Proof. intros R N n ->. inversion R; subst. now apply (N n). Qed.

  Lemma ord_dec {A} {O : Ord A} (a b : A) : a = b \/ a <> b.
  Proof. destruct (eqb a b) eqn:E; [left; now apply eqb_eq|right; intros ->; rewrite eqb_refl in E; discriminate]. Qed.
  Lemma part_dec (x y : part) : x = y \/ x <> y.
  Proof.
    destruct x as [i|e|i n|e n], y as [i'|e'|i' n'|e' n']; try (right; discriminate).
    - destruct (ord_dec i i') as [->|N]; [now left|right; congruence].
    - destruct (ord_dec e e') as [->|N]; [now left|right; congruence].
    - destruct (ord_dec i i') as [->|N]; [|right; congruence]. destruct (ord_dec n n') as [->|N]; [now left|right; congruence].
    - destruct (ord_dec e e') as [->|N]; [|right; congruence]. destruct (ord_dec n n') as [->|N]; [now left|right; congruence].
  Qed.
  Lemma some_dec {A} (P : A -> Prop) l : (forall a, P a \/ ~ P a) -> (exists a, In a l /\ P a) \/ ~ (exists a, In a l /\ P a).
  Proof.
    intros D. induction l as [|a l [(b & Hb & Pb)|IH]].
    - right. intros (a & [] & _).
    - left. exists b. split; [now right|exact Pb].
    - destruct (D a) as [Pa|Na]; [left; exists a; split; [now left|exact Pa]|]. right. intros (b & [<-|Hb] & Pb); [contradiction|]. apply IH. eauto.
  Qed.
  Lemma touches_dec e id : touches e id \/ ~ touches e id.
  Proof.
    unfold touches. destruct (ord_dec (eout e) id) as [E|N1]; [tauto|]. destruct (ord_dec (ein e) id); tauto.
  Qed.
  Lemma goes_dec x y : goes_with x y \/ ~ goes_with x y.
  Proof.
    destruct x as [id|e|id n|e n]; cbn [goes_with]; try apply part_dec.
    - destruct y as [i|f|i m|f m].
      + destruct (ord_dec i id) as [->|N]; [left; auto|]. right. intros [E|[(n & E)|(e & _ & [E|(n & E)])]]; congruence.
      + destruct (touches_dec f id) as [T|N]; [left; right; right; exists f; auto|]. right. intros [E|[(n & E)|(e & T & [E|(n & E)])]]; congruence.
      + destruct (ord_dec i id) as [->|N]; [left; eauto|]. right. intros [E|[(n & E)|(e & _ & [E|(n & E)])]]; congruence.
      + destruct (touches_dec f id) as [T|N]; [left; right; right; exists f; eauto|]. right. intros [E|[(n & E)|(e & T & [E|(n & E)])]]; congruence.
    - destruct y as [i|f|i m|f m].
      + right. intros [E|(n & E)]; congruence.
      + destruct (ord_dec f e) as [->|N]; [left; auto|]. right. intros [E|(n & E)]; congruence.
      + right. intros [E|(n & E)]; congruence.
      + destruct (ord_dec f e) as [->|N]; [left; eauto|]. right. intros [E|(n & E)]; congruence.
  Qed.
  Lemma acts_dec a x : acts a x \/ ~ acts a x.
  Proof.
    destruct a; cbn [acts]; try apply part_dec; try (apply some_dec; intros; apply part_dec); try (apply some_dec; intros; apply goes_dec); tauto.
  Qed.

  (** Two calls that are apart, in either order. *)
  Theorem resolves_commute g o o' r a r' a' : apart o o' ->
    resolves g o r a -> resolves (g_apply g a) o' r' a' ->
    resolves g o' r' a' /\ resolves (g_apply g a') o r a /\ g_apply (g_apply g a') a = g_apply (g_apply g a) a'.
  Proof.
    intros (N1 & N2 & D) R1 R2.
    pose proof (act_frame g (resolves_noindex R1 N1)) as [I1 F1].
    assert (same_on (depends o') g (g_apply g a)) as S1.
    { split; [exact I1|]. intros x Dx. apply F1. intros Ax. exact (proj1 (D x) (resolves_acts R1 _ Ax) Dx). }
    assert (resolves g o' r' a') as R2' by (eapply resolves_same; [exact N2|apply same_sym, S1|exact R2]).
    pose proof (act_frame g (resolves_noindex R2' N2)) as [I2 F2].
    assert (same_on (depends o) g (g_apply g a')) as S2.
    { split; [exact I2|]. intros x Dx. apply F2. intros Ax. exact (proj2 (D x) (resolves_acts R2' _ Ax) Dx). }
    assert (resolves (g_apply g a') o r a) as R1' by (eapply resolves_same; [exact N1|exact S2|exact R1]).
    split; [exact R2'|]. split; [exact R1'|].
    pose proof (act_frame (g_apply g a) (resolves_noindex R2 N2)) as [I3 F3].
    pose proof (act_frame (g_apply g a') (resolves_noindex R1' N1)) as [I4 F4].
    apply same_everywhere; [congruence|].
    pose proof (@act_same _ _ _ a' S1 (resolves_needs R2')) as [_ T1]. pose proof (@act_same _ _ _ a S2 (resolves_needs R1)) as [_ T2].
    intros x. destruct (acts_dec a x) as [A|A].
    - pose proof (alters_depends _ _ (resolves_acts R1 _ A)) as Dx. assert (~ acts a' x) as A'.
      { intros A'. exact (proj2 (D x) (resolves_acts R2 _ A') Dx). }
      eapply same_part_trans; [apply same_part_sym, (F3 x A')|]. exact (T2 x Dx).
    - destruct (acts_dec a' x) as [A'|A'].
      + pose proof (alters_depends _ _ (resolves_acts R2 _ A')) as Dx.
        eapply same_part_trans; [apply same_part_sym, (T1 x Dx)|]. exact (F4 x A).
      + eapply same_part_trans; [apply same_part_sym, (F3 x A')|]. eapply same_part_trans; [apply same_part_sym, (F1 x A)|].
        eapply same_part_trans; [apply (F2 x A')|]. exact (F4 x A).
  Qed.
End Calls.
