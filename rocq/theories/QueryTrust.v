(** * What queries return even when indexes cannot be trusted.

    Vertices returned by any query exist.  Edges returned exist, unless they
    come straight from an edge index leaf.  A panic is only possible when all
    properties of a bad vertex are read. *)
From Verif Require Import Base OMap Json Types Util Db Spec QueryFacts SpecFacts.

Set Implicit Arguments.

(** The innermost query. *)
Fixpoint leaf (q : query) : query :=
  match q with
  | QPipe i _ _ _ | QPipeProperty i _ | QPipeWithPropertyPresence i _ _
  | QPipeWithPropertyValue i _ _ _ | QInclude i | QCount i => leaf i
  | _ => q
  end.

(** Some stage reads all properties of its input. *)
Fixpoint reads_all (q : query) : bool :=
  match q with
  | QPipeProperty i None => true
  | QPipe i _ _ _ | QPipeProperty i _ | QPipeWithPropertyPresence i _ _
  | QPipeWithPropertyValue i _ _ _ | QInclude i | QCount i => reads_all i
  | _ => false
  end.

(** The errors of the query engine itself. *)
Definition qerr (e : error) : Prop := match e with OperationOnQuery | NotIndexed => True | _ => False end.

Section Trust.
  Context {S : Type}.
  Variable ops : txn_ops S.
  Variable s : S.
  Variable g : graph.
  Variable tlt : ident -> ident -> Prop.
  Variable vmatch : json -> json -> Prop.
  Variable ixok : ident -> Prop.
  Variable bad : uuid -> Prop.
  Hypothesis T : type_order tlt.
  Hypothesis RO : reads_ok ops s g tlt vmatch ixok bad.

  (** Which edge index leaves return only existing edges. *)
  Variable tl : query -> Prop.
  Hypothesis TP : forall n l, tl (QEdgeWithPropertyPresence n) ->
    t_edges_with_property ops s n = Ok (Some (map Ok l)) -> Forall (is_edge g) l.
  Hypothesis TV : forall n x l, tl (QEdgeWithPropertyValue n x) ->
    t_edges_with_property_value ops s n x = Ok (Some (map Ok l)) -> Forall (is_edge g) l.

  (** Elements of an output exist ([b]: also the edges). *)
  Definition good (b : Prop) (v : outv) : Prop :=
    match v with
    | Vertices l => Forall (is_vertex g) l
    | Edges l => b -> Forall (is_edge g) l
    | Count _ => True
    | VertexProperties l => Forall (fun x => is_vertex g (vp_vertex x)) l
    | EdgeProperties l => b -> Forall (fun x => is_edge g (ep_edge x)) l
    end.

  Definition trust (q : query) (b : Prop) (out : list outv) : Prop :=
    match query_exec ops s q out with
    | Ok out' => exists v rest, out' = v :: rest /\ good b v /\ (forall w, In w rest -> In w out \/ good b w)
    | Err e => qerr e
    | Panic => reads_all q = true /\ exists v, is_vertex g v /\ bad (vid v)
    end.

  Lemma pipe_good d limit t vs l b :
    pipe_vertices ops s d limit t vs [] = Ok l -> good b (Edges l).
  Proof.
    destruct (pipe_vertices_ok T RO d t vs [] (N.le_0_l limit)) as (ls & Hls & E).
    rewrite E. intros H Hb. inversion H; subst. cbn. apply Forall_forall. intros e He. apply limited_In in He.
    apply in_concat in He as (l0 & Hl & He). eapply Forall2_In_r in Hl; [|exact Hls].
    destruct Hl as (w & _ & [_ Hi]). now apply Hi in He.
  Qed.
  Lemma pipe_vertices_Ok d limit t vs : exists l, pipe_vertices ops s d limit t vs [] = Ok l.
  Proof.
    destruct (pipe_vertices_ok T RO d t vs [] (N.le_0_l limit)) as (ls & Hls & E). eauto.
  Qed.

  Lemma specific_good ids b l : t_specific_vertices ops s ids = Ok (map Ok l) -> good b (Vertices l).
  Proof.
    rewrite (ro_specific_vertices RO). intros H. inversion H as [H1].
    assert (flat_map (found g) ids = l) as <-.
    { clear -H1. revert l H1. generalize (flat_map (found g) ids). induction l as [|a l IH]; intros [|b l'] H; try discriminate; [reflexivity|].
      inversion H. f_equal. auto. }
    cbn. apply Forall_forall. intros v Hv. now apply in_found in Hv.
  Qed.

  Lemma combine_fst_In {A B} (l : list A) (l' : list B) x y : In (x, y) (combine l l') -> In x l.
  Proof. intros H. now apply in_combine_l in H. Qed.

  Theorem query_trust q : forall (b : Prop) out,
    (b -> match leaf q with
          | QEdgeWithPropertyPresence _ | QEdgeWithPropertyValue _ _ => tl (leaf q)
          | _ => True
          end) ->
    trust q b out.
  Proof.
    (* generic handling of a stage *)
    assert (forall q inner (f : outv -> outcome outv) b out,
      trust inner b out ->
      query_exec ops s q out =
       (let? out1 := query_exec ops s inner out in
        let? po := pop out1 in
        let? value := f (fst po) in
        Ok (value :: re_export inner (fst po) (snd po))) ->
      (reads_all inner = true -> reads_all q = true) ->
      (forall p, good b p -> match f p with
                             | Ok v => good b v
                             | Err e => qerr e
                             | Panic => reads_all q = true /\ exists v, is_vertex g v /\ bad (vid v)
                             end) ->
      trust q b out) as ST.
    { clear q. intros q inner f b out HI E HR HF. unfold trust in *. rewrite E. clear E.
      destruct (query_exec ops s inner out) as [out1|e|]; cbn [obind].
      - destruct HI as (v & rest & -> & Gv & Gr). cbn [pop obind fst snd]. specialize (HF v Gv).
        destruct (f v) as [w|e|]; cbn [obind]; [|exact HF|exact HF].
        exists w, (re_export inner v rest). split; [reflexivity|]. split; [assumption|].
        intros u Hu. unfold re_export in Hu. destruct (is_include inner); [|auto].
        destruct Hu as [<-|Hu]; auto.
      - exact HI.
      - destruct HI as [HI HB]. auto. }
    induction q as [|limit t start|ids|n|n x| |es|n|n x|inner IH d limit t|inner IH name|inner IH n ok
                    |inner IH n x ok|inner IH|inner IH]; intros b out TL; cbn [leaf] in TL.
    - destruct (ro_all_vertices RO) as (l & Hy & _ & Hl). unfold yields in Hy. unfold trust. cbn [query_exec]. rewrite Hy.
      cbn [obind]. rewrite collect_Ok. cbn [obind]. exists (Vertices l), out. split; [reflexivity|]. split; [|auto].
      apply Forall_forall. intros v Hv. now apply Hl.
    - unfold trust. cbn [query_exec]. destruct start as [id|].
      + destruct (ro_range_vertices RO id) as (l & Hy & _ & Hl). unfold yields in Hy. rewrite Hy. cbn [obind].
        rewrite filter_t_matches, takeN_map, collect_Ok. cbn [obind].
        eexists _, out. split; [reflexivity|]. split; [|auto]. apply Forall_forall. intros v Hv.
        rewrite takeN_firstn in Hv. apply limited_In in Hv. apply filter_In in Hv as [Hv _]. now apply Hl in Hv.
      + destruct (ro_all_vertices RO) as (l & Hy & _ & Hl). unfold yields in Hy. rewrite Hy. cbn [obind].
        rewrite filter_t_matches, takeN_map, collect_Ok. cbn [obind].
        eexists _, out. split; [reflexivity|]. split; [|auto]. apply Forall_forall. intros v Hv.
        rewrite takeN_firstn in Hv. apply limited_In in Hv. apply filter_In in Hv as [Hv _]. now apply Hl in Hv.
    - unfold trust. cbn [query_exec]. rewrite (ro_specific_vertices RO). cbn [obind]. rewrite collect_Ok. cbn [obind].
      eexists _, out. split; [reflexivity|]. split; [|auto]. apply Forall_forall. intros v Hv. now apply in_found in Hv.
    - unfold trust. cbn [query_exec]. destruct (ro_vindex RO n) as [[E _]|(l & E & _)]; rewrite E; cbn [obind indexed_or_err].
      + exact I.
      + rewrite collect_Ok. cbn [obind]. rewrite (ro_specific_vertices RO). cbn [obind]. rewrite collect_Ok. cbn [obind].
        eexists _, out. split; [reflexivity|]. split; [|auto]. apply Forall_forall. intros v Hv. now apply in_found in Hv.
    - unfold trust. cbn [query_exec]. destruct (ro_vindex_value RO n x) as [[E _]|(l & E & _)]; rewrite E; cbn [obind indexed_or_err].
      + exact I.
      + rewrite collect_Ok. cbn [obind]. rewrite (ro_specific_vertices RO). cbn [obind]. rewrite collect_Ok. cbn [obind].
        eexists _, out. split; [reflexivity|]. split; [|auto]. apply Forall_forall. intros v Hv. now apply in_found in Hv.
    - destruct (ro_all_edges RO) as (l & Hy & _ & Hl). unfold yields in Hy. unfold trust. cbn [query_exec]. rewrite Hy.
      cbn [obind]. rewrite collect_Ok. cbn [obind]. exists (Edges l), out. split; [reflexivity|]. split; [|auto].
      intros _. apply Forall_forall. intros v Hv. now apply Hl.
    - destruct (ro_specific_edges RO es) as (l & Hy & Hl). unfold yields in Hy. unfold trust. cbn [query_exec]. rewrite Hy.
      cbn [obind]. rewrite collect_Ok. cbn [obind]. exists (Edges l), out. split; [reflexivity|]. split; [|auto].
      intros _. apply Forall_forall. intros v Hv. eapply keeps_incl in Hl; [|exact Hv]. tauto.
    - unfold trust. cbn [query_exec]. destruct (ro_eindex RO n) as [[E _]|(l & E & _)]; rewrite E; cbn [obind indexed_or_err].
      + exact I.
      + rewrite collect_Ok. cbn [obind]. eexists _, out. split; [reflexivity|]. split; [|auto].
        intros Hb. eapply TP; eauto.
    - unfold trust. cbn [query_exec]. destruct (ro_eindex_value RO n x) as [[E _]|(l & E & _)]; rewrite E; cbn [obind indexed_or_err].
      + exact I.
      + rewrite collect_Ok. cbn [obind]. eexists _, out. split; [reflexivity|]. split; [|auto].
        intros Hb. eapply TV; eauto.
    - eapply ST with (f := fun piped => match piped with
                    | Edges es => omapo Vertices (pipe_edges ops s d limit t es)
                    | Vertices vs => omapo Edges (pipe_vertices ops s d limit t vs [])
                    | _ => Err OperationOnQuery
                    end); [apply IH; exact TL| |auto|].
      + cbn [query_exec]. destruct (query_exec ops s inner out) as [[|v r]|e|]; reflexivity.
      + intros [l|l|l|l|l] Hp; try exact I.
        * destruct (pipe_vertices_Ok d limit t l) as (l' & E). rewrite E. cbn [omapo].
          eapply pipe_good; eauto.
        * destruct (pipe_edges_ok RO d limit t l) as (l' & Hk & E). rewrite E. cbn [omapo good].
          apply Forall_forall. intros v Hv. apply limited_In in Hv. eapply keeps_incl in Hk; [|exact Hv].
          destruct Hk as [Hk _]. now apply in_found in Hk.
    - eapply ST with (f := fun piped => match piped with
                    | Edges es => omapo EdgeProperties (props_of_edges ops s name es)
                    | Vertices vs => omapo VertexProperties (props_of_vertices ops s name vs)
                    | _ => Err OperationOnQuery
                    end); [apply IH; exact TL| | |].
      + cbn [query_exec]. destruct (query_exec ops s inner out) as [[|v r]|e|]; reflexivity.
      + cbn [reads_all]. destruct name; auto.
      + intros [l|l|l|l|l] Hp; try exact I.
        * assert ((name = None -> Forall (fun v => ~ bad (vid v)) l) \/ (name = None /\ ~ Forall (fun v => ~ bad (vid v)) l)) as D.
          { destruct name; [left; discriminate|]. destruct (forall_bad_dec RO l); auto. }
          destruct D as [D|[-> D]].
          -- destruct (props_of_vertices_ok RO D) as (pss & _ & E). rewrite E. cbn [omapo good].
             apply Forall_forall. intros vp Hvp. apply in_flat_map in Hvp as ([v ps] & Hin & Hvp).
             apply in_combine_l in Hin. unfold nonempty_v in Hvp. cbn in Hvp. destruct ps; [destruct Hvp|].
             destruct Hvp as [<-|[]]. cbn. cbn in Hp. rewrite Forall_forall in Hp. auto.
          -- rewrite (props_of_vertices_bad RO D). cbn [omapo]. split; [reflexivity|].
             apply (not_forall_exists_bad RO) in D. apply Exists_exists in D as (v & Hv & B). exists v. split; [|assumption].
             cbn in Hp. rewrite Forall_forall in Hp. auto.
        * destruct (props_of_edges_ok RO name l) as (pss & _ & E). rewrite E. cbn [omapo good]. intros Hb.
          apply Forall_forall. intros vp Hvp. apply in_flat_map in Hvp as ([v ps] & Hin & Hvp).
          apply in_combine_l in Hin. unfold nonempty_e in Hvp. cbn in Hvp. destruct ps; [destruct Hvp|].
          destruct Hvp as [<-|[]]. cbn. cbn in Hp. specialize (Hp Hb). rewrite Forall_forall in Hp. auto.
    - eapply ST with (f := fun piped => match piped with
                    | Edges es =>
                      let? l := indexed_or_err (t_edges_with_property ops s n) in
                      Ok (Edges (filter (fun e => flagged ok (contains e l)) es))
                    | Vertices vs =>
                      let? l := indexed_or_err (t_vertex_ids_with_property ops s n) in
                      Ok (Vertices (filter (fun v => flagged ok (contains (vid v) l)) vs))
                    | _ => Err OperationOnQuery
                    end); [apply IH; exact TL| |auto|].
      + cbn [query_exec]. destruct (query_exec ops s inner out) as [[|v r]|e|]; reflexivity.
      + intros [l|l|l|l|l] Hp; try exact I.
        * destruct (ro_vindex RO n) as [[E _]|(l' & E & _)]; rewrite E; cbn [obind indexed_or_err]; [exact I|].
          rewrite collect_Ok. cbn [obind good] in *. rewrite Forall_forall in *. intros v Hv. apply filter_In in Hv as [Hv _]. auto.
        * destruct (ro_eindex RO n) as [[E _]|(l' & E & _)]; rewrite E; cbn [obind indexed_or_err]; [exact I|].
          rewrite collect_Ok. cbn [obind good] in *. intros Hb. specialize (Hp Hb). rewrite Forall_forall in *.
          intros v Hv. apply filter_In in Hv as [Hv _]. auto.
    - eapply ST with (f := fun piped => match piped with
                    | Edges es =>
                      let? l := indexed_or_err (t_edges_with_property_value ops s n x) in
                      Ok (Edges (filter (fun e => flagged ok (contains e l)) es))
                    | Vertices vs =>
                      let? l := indexed_or_err (t_vertex_ids_with_property_value ops s n x) in
                      Ok (Vertices (filter (fun v => flagged ok (contains (vid v) l)) vs))
                    | _ => Err OperationOnQuery
                    end); [apply IH; exact TL| |auto|].
      + cbn [query_exec]. destruct (query_exec ops s inner out) as [[|v r]|e|]; reflexivity.
      + intros [l|l|l|l|l] Hp; try exact I.
        * destruct (ro_vindex_value RO n x) as [[E _]|(l' & E & _)]; rewrite E; cbn [obind indexed_or_err]; [exact I|].
          rewrite collect_Ok. cbn [obind good] in *. rewrite Forall_forall in *. intros v Hv. apply filter_In in Hv as [Hv _]. auto.
        * destruct (ro_eindex_value RO n x) as [[E _]|(l' & E & _)]; rewrite E; cbn [obind indexed_or_err]; [exact I|].
          rewrite collect_Ok. cbn [obind good] in *. intros Hb. specialize (Hp Hb). rewrite Forall_forall in *.
          intros v Hv. apply filter_In in Hv as [Hv _]. auto.
    - specialize (IH b out TL). unfold trust in *. cbn [query_exec reads_all].
      destruct (query_exec ops s inner out) as [out1|e|]; cbn [obind]; auto.
      destruct IH as (v & rest & -> & Gv & Gr). cbn [pop obind]. eauto.
    - assert (inner = QAllVertex \/ inner = QAllEdge \/
              query_exec ops s (QCount inner) out =
              (let? out1 := query_exec ops s inner out in
               let? po := pop out1 in
               let? value := match fst po with
                  | Vertices l => Ok (Count (lenN l))
                  | Edges l => Ok (Count (lenN l))
                  | VertexProperties l => Ok (Count (lenN l))
                  | EdgeProperties l => Ok (Count (lenN l))
                  | Count _ => Err OperationOnQuery
                  end in
               Ok (value :: re_export inner (fst po) (snd po)))) as D.
      { destruct inner; auto; right; right; cbn [query_exec];
          match goal with |- context [query_exec ops s ?q out] => idtac | _ => idtac end;
          match goal with |- obind ?x _ = obind ?x _ => destruct x as [[|[]]|e|]; reflexivity | _ => idtac end. }
      destruct D as [->|[->|D]].
      + unfold trust. cbn [query_exec]. destruct (ro_vertex_count RO) as (l & E & _). rewrite E. cbn [obind].
        eexists _, out. split; [reflexivity|]. split; [exact I|auto].
      + unfold trust. cbn [query_exec]. destruct (ro_edge_count RO) as (l & E & _). rewrite E. cbn [obind].
        eexists _, out. split; [reflexivity|]. split; [exact I|auto].
      + eapply ST with (f := fun p => match p with
                  | Vertices l => Ok (Count (lenN l))
                  | Edges l => Ok (Count (lenN l))
                  | VertexProperties l => Ok (Count (lenN l))
                  | EdgeProperties l => Ok (Count (lenN l))
                  | Count _ => Err OperationOnQuery
                  end); [apply IH; exact TL|exact D|auto|]. intros [l|l|l|l|l] Hp; exact I.
  Qed.
End Trust.
