(** * Where the identifiers and values in answers come from.

    If every identifier and value written satisfies a predicate, so does every
    one in the graph and in every query's outputs. *)
From Verif Require Import Base OMap Json Types Util Db Spec QueryFacts SpecFacts MemFacts RdbSpec ProtoFacts.

Set Implicit Arguments.

Section Clean.
  Variable P : ident -> Prop.
  Variable Q : json -> Prop.

  Record clean (g : graph) : Prop := {
    cl_v : forall id t, get id (gv g) = Some t -> P t;
    cl_e : forall e, is_edge g e -> P (et e);
    cl_vp : forall id n x, get (id, n) (gvp g) = Some x -> P n /\ Q x;
    cl_ep : forall e n x, get (e, n) (gep g) = Some x -> P n /\ Q x }.

  Definition clean_item (it : bulk_item) : Prop :=
    match it with
    | BVertex v => P (vt v)
    | BEdge e => P (et e)
    | BVProp _ n x | BEProp _ n x => P n /\ Q x
    end.
  (** What a call writes. *)
  Definition clean_op (o : op) : Prop :=
    match o with
    | OCreateVertex v => P (vt v)
    | OCreateVertexFromType _ t => P t
    | OCreateEdge e => P (et e)
    | OSetProperties _ n x | TSetVertexProperties _ n x | TSetEdgeProperties _ n x => P n /\ Q x
    | OBulkInsert items => Forall clean_item items
    | _ => True
    end.
  Definition clean_action (a : action) : Prop :=
    match a with
    | ACreateVertex v => P (vt v)
    | ACreateEdge e => P (et e)
    | ASetVProps _ n x | ASetEProps _ n x => P n /\ Q x
    | ABulk items => Forall clean_item items
    | _ => True
    end.
  Definition clean_out (v : outv) : Prop := Forall P (out_idents v) /\ Forall Q (out_values v).

  Lemma resolves_clean tlt vm g o r a : resolves tlt vm g o r a -> clean_op o -> clean_action a.
  Proof. intros []; cbn; auto. Qed.

  Lemma clean_empty : clean g_empty.
  Proof. split; intros; cbn in *; try discriminate. Qed.

  Lemma clean_set_vprops ids n x : forall g, clean g -> P n -> Q x -> clean (g_set_vertex_properties g ids n x).
  Proof.
    unfold g_set_vertex_properties. induction ids as [|id ids IH]; intros g C Hn Hx; cbn [fold_left].
    - destruct C. split; auto.
    - specialize (IH (Graph (gv g) (ge g) (set (id, n) x (gvp g)) (gep g) (gix g))). cbn in IH. apply IH; auto.
      destruct C as [c1 c2 c3 c4]. split; auto. cbn. intros id' m y. rewrite get_set.
      destruct (eqb (id', m) (id, n)) eqn:E; [apply eqb_eq in E; inversion E; subst; intros H; inversion H; now subst|apply c3].
  Qed.
  Lemma clean_set_eprops es n x : forall g, clean g -> P n -> Q x -> clean (g_set_edge_properties g es n x).
  Proof.
    unfold g_set_edge_properties. induction es as [|e es IH]; intros g C Hn Hx; cbn [fold_left].
    - destruct C. split; auto.
    - specialize (IH (Graph (gv g) (ge g) (gvp g) (set (e, n) x (gep g)) (gix g))). cbn in IH. apply IH; auto.
      destruct C as [c1 c2 c3 c4]. split; auto. cbn. intros e' m y. rewrite get_set.
      destruct (eqb (e', m) (e, n)) eqn:E; [apply eqb_eq in E; inversion E; subst; intros H; inversion H; now subst|apply c4].
  Qed.
  Lemma clean_set_vertex g id t : clean g -> P t -> clean (Graph (set id t (gv g)) (ge g) (gvp g) (gep g) (gix g)).
  Proof.
    intros [c1 c2 c3 c4] H. split; auto. cbn. intros id' t'. rewrite get_set.
    destruct (eqb id' id); [congruence|apply c1].
  Qed.
  Lemma clean_add_edge g e : clean g -> P (et e) -> clean (Graph (gv g) (add e (ge g)) (gvp g) (gep g) (gix g)).
  Proof.
    intros [c1 c2 c3 c4] H. split; auto. unfold is_edge. cbn. intros e'. rewrite mem_add.
    destruct (eqb e' e) eqn:E; [apply eqb_eq in E; now subst|apply c2].
  Qed.
  Lemma clean_sub g g' : clean g ->
    (forall id t, get id (gv g') = Some t -> get id (gv g) = Some t) ->
    (forall e, is_edge g' e -> is_edge g e) ->
    (forall k x, get k (gvp g') = Some x -> get k (gvp g) = Some x) ->
    (forall k x, get k (gep g') = Some x -> get k (gep g) = Some x) -> clean g'.
  Proof. intros [c1 c2 c3 c4] h1 h2 h3 h4. split; eauto. Qed.

  Lemma filt_sub {K V} {O : Ord K} p (m : omap K V) k v : get k (filt p m) = Some v -> get k m = Some v.
  Proof. rewrite get_filt. destruct (get k m) as [w|]; [|discriminate]. destruct (p (k, w)); congruence. Qed.
  Lemma filt_sub_mem {K} {O : Ord K} p (m : oset K) k : mem k (filt p m) = true -> mem k m = true.
  Proof. intros Hm. apply mem_get in Hm as (x & Hx). apply filt_sub in Hx. apply mem_get. eauto. Qed.

  Lemma clean_apply g a : clean g -> clean_action a -> clean (g_apply g a).
  Proof.
    intros C A.
    assert (forall it g, clean g -> clean_item it -> clean (g_bulk_item g it)) as CI.
    { intros it g0 C0 I. destruct it; cbn in *.
      - unfold g_create_vertex. destruct (mem _ _); [auto|]. now apply clean_set_vertex.
      - unfold g_create_edge. destruct (_ && _); [|auto]. now apply clean_add_edge.
      - destruct I. now apply (@clean_set_vprops [id]).
      - destruct I. now apply (@clean_set_eprops [e]). }
    destruct a; cbn in *; auto.
    - now apply (CI (BVertex v)).
    - now apply (CI (BEdge e)).
    - eapply clean_sub; [exact C| | | |]; cbn; intros *; try apply filt_sub. unfold is_edge; apply filt_sub_mem.
    - eapply clean_sub; [exact C| | | |]; cbn; intros *; auto; try apply filt_sub. unfold is_edge; apply filt_sub_mem.
    - eapply clean_sub; [exact C| | | |]; cbn; intros *; auto; try apply filt_sub.
    - eapply clean_sub; [exact C| | | |]; cbn; intros *; auto; try apply filt_sub.
    - destruct A. now apply clean_set_vprops.
    - destruct A. now apply clean_set_eprops.
    - unfold g_bulk_insert. revert g C. induction items as [|it items IH]; intros g C; cbn; [assumption|].
      apply Forall_cons_iff in A as [A1 A2]. apply IH; auto.
    - destruct C. split; auto.
  Qed.

  Lemma clean_r_apply g a : clean g -> clean_action a -> clean (r_apply g a).
  Proof.
    intros C A. destruct a; try (now apply (clean_apply _ C A)); cbn [r_apply].
    - eapply clean_sub; [exact C| | | |]; cbn; intros *; try apply filt_sub. unfold is_edge; apply filt_sub_mem.
    - eapply clean_sub; [exact C| | | |]; cbn; intros *; auto; try apply filt_sub. unfold is_edge; apply filt_sub_mem.
    - cbn in A. unfold r_bulk_insert. revert g C. induction items as [|it items IH]; intros g C; cbn [fold_left]; [assumption|].
      apply Forall_cons_iff in A as [A1 A2]. apply IH; auto. destruct it; cbn in *.
      + now apply clean_set_vertex.
      + now apply clean_add_edge.
      + destruct A1. now apply (@clean_set_vprops [id]).
      + destruct A1. now apply (@clean_set_eprops [e]).
  Qed.

  Lemma Forall2_combine {A B} (R : A -> B -> Prop) l l' x y : Forall2 R l l' -> In (x, y) (combine l l') -> R x y.
  Proof. induction 1; cbn; [tauto|]. intros [E|Hi]; [inversion E; now subst|auto]. Qed.

  Lemma exists_clean g v : clean g -> value_exists g v -> is_elems v = true -> clean_out v.
  Proof.
    intros C E L. destruct v as [l|l|n|l|l]; try discriminate; cbn in E; split; cbn; try constructor;
      apply Forall_map; eapply Forall_impl; try exact E; cbn; intros a Ha.
    - eapply (cl_v C). exact Ha.
    - now apply (cl_e C).
  Qed.

  Lemma evals_clean tlt vm g q ex v : clean g -> evals tlt vm g q ex v -> Forall clean_out ex /\ clean_out v.
  Proof.
    intros C E. assert (forall q ex v, evals tlt vm g q ex v -> is_elems v = true -> clean_out v) as EE.
    { intros q0 ex0 v0 H0. apply (@exists_clean g v0 C). now apply evals_exists in H0. }
    assert (forall i v, Forall clean_out ex -> clean_out v -> Forall clean_out (exported i v)) as XX.
    { intros i w _ Hw. destruct i; cbn; auto. }
    induction E; try (split; [try constructor|eapply EE; [econstructor; eassumption|reflexivity]]).
    all: try (destruct IHE as [I1 I2]; [intros i w _ Hw; destruct i; cbn; auto|]).
    all: try (apply Forall_app; split; [assumption|destruct inner; cbn; auto]).
    - (* vertex properties *)
      split; [apply Forall_app; split; [assumption|destruct inner; cbn; auto]|].
      split; apply Forall_flat_map, Forall_forall; intros x Hx;
        apply in_flat_map in Hx as ([w ps] & Hc & Hx); unfold nonempty_v in Hx; cbn [fst snd] in Hx.
      + destruct ps as [|p ps]; [destruct Hx|]. destruct Hx as [<-|[]]. cbn [vp_vertex vp_props].
        pose proof (in_combine_l _ _ _ _ Hc) as Hw. 
        constructor; [destruct I2 as [I2 _]; cbn in I2; rewrite Forall_map, Forall_forall in I2; now apply I2|].
        apply Forall_map, Forall_forall. intros y Hy.
        eapply Forall2_combine in Hc; [|eassumption]. destruct Hc as [_ Hi]. apply Hi in Hy as [Hy _]. now apply (cl_vp C) in Hy.
      + destruct ps as [|p ps]; [destruct Hx|]. destruct Hx as [<-|[]]. cbn [vp_vertex vp_props].
        apply Forall_map, Forall_forall. intros y Hy.
        eapply Forall2_combine in Hc; [|eassumption]. destruct Hc as [_ Hi]. apply Hi in Hy as [Hy _]. now apply (cl_vp C) in Hy.
    - split; [apply Forall_app; split; [assumption|destruct inner; cbn; auto]|].
      split; apply Forall_flat_map, Forall_forall; intros x Hx;
        apply in_flat_map in Hx as ([w ps] & Hc & Hx); unfold nonempty_e in Hx; cbn [fst snd] in Hx.
      + destruct ps as [|p ps]; [destruct Hx|]. destruct Hx as [<-|[]]. cbn [ep_edge ep_props].
        pose proof (in_combine_l _ _ _ _ Hc) as Hw. 
        constructor; [destruct I2 as [I2 _]; cbn in I2; rewrite Forall_map, Forall_forall in I2; now apply I2|].
        apply Forall_map, Forall_forall. intros y Hy.
        eapply Forall2_combine in Hc; [|eassumption]. destruct Hc as [_ Hi]. apply Hi in Hy as [Hy _]. now apply (cl_ep C) in Hy.
      + destruct ps as [|p ps]; [destruct Hx|]. destruct Hx as [<-|[]]. cbn [ep_edge ep_props].
        apply Forall_map, Forall_forall. intros y Hy.
        eapply Forall2_combine in Hc; [|eassumption]. destruct Hc as [_ Hi]. apply Hi in Hy as [Hy _]. now apply (cl_ep C) in Hy.
    - auto.
    - split; [apply Forall_app; split; [assumption|destruct inner; cbn; auto]|]. split; constructor.
  Qed.

  (** Calls that write clean data keep the graph clean and answer clean data. *)
  Lemma resolves_answer tlt vm g o l a : clean g -> resolves tlt vm g o (Ok (ROut l)) a -> Forall clean_out l.
  Proof.
    intros C R. remember (Ok (ROut l)) as r eqn:Er. destruct R as [| | | |q ex v E| | | | | | | | | | | | | | | | | | | |]; try discriminate.
    inversion Er; subst. destruct (evals_clean C E) as [H1 H2]. apply Forall_app. auto.
  Qed.
End Clean.
