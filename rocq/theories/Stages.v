(** * Queries as chains of stages; consequences that hold for every backend
    whose primitive reads agree with some graph. *)
From Verif Require Import Base OMap Json Types Util Db Spec QueryFacts SpecFacts QueryTrust UtilFacts MemFacts.

Set Implicit Arguments.

(** ** Specification vocabulary *)

(** The includes of a query that another stage consumes, innermost first. *)
Fixpoint included (q : query) : list query :=
  match q with
  | QPipe i _ _ _ | QPipeProperty i _ | QPipeWithPropertyPresence i _ _
  | QPipeWithPropertyValue i _ _ _ | QCount i =>
    included i ++ match i with QInclude _ => [i] | _ => [] end
  | QInclude i => included i
  | _ => []
  end.

(** The query without its includes. *)
Fixpoint strip (q : query) : query :=
  match q with
  | QPipe i d l t => QPipe (strip i) d l t
  | QPipeProperty i n => QPipeProperty (strip i) n
  | QPipeWithPropertyPresence i n b => QPipeWithPropertyPresence (strip i) n b
  | QPipeWithPropertyValue i n x b => QPipeWithPropertyValue (strip i) n x b
  | QCount i => QCount (strip i)
  | QInclude i => strip i
  | _ => q
  end.

(** The outermost result: the last output of [get]. *)
Definition answer {S} (ops : txn_ops S) (s : S) (q : query) : outcome outv :=
  match db_get ops s q with
  | Ok outs => match rev outs with v :: _ => Ok v | [] => Panic end
  | Err e => Err e
  | Panic => Panic
  end.

Definition kind_of_out (v : outv) : okind :=
  match v with
  | Vertices _ => KVertices | Edges _ => KEdges | Count _ => KCount
  | VertexProperties _ => KVProps | EdgeProperties _ => KEProps
  end.

(** Paging through the vertices: each page starts right after the last vertex
    of the previous one. *)
Inductive pages (page : uuid -> list vertex) : uuid -> list vertex -> Prop :=
| pages_end start : page start = [] -> pages page start []
| pages_more start vs last next rest :
    page start = vs ++ [last] -> next_uuid (vid last) = Ok next ->
    pages page next rest -> pages page start (vs ++ [last] ++ rest)
| pages_max start vs last e :
    page start = vs ++ [last] -> next_uuid (vid last) = Err e -> pages page start (vs ++ [last]).

(** ** Stages *)

Lemma query_stage_ind (P : query -> Prop) :
  (forall q, inner_of q = None -> P q) ->
  (forall q i, inner_of q = Some i -> P i -> P q) -> forall q, P q.
Proof. intros HL HS. induction q; try (now apply HL); (eapply HS; [reflexivity|assumption]). Qed.

Section Stages.
  Context {S : Type}.
  Variable ops : txn_ops S.
  Variable s : S.

  Definition stage_value (q : query) (piped : outv) : outcome outv :=
    match q with
    | QPipe _ dir limit t =>
      match piped with
      | Edges es => omapo Vertices (pipe_edges ops s dir limit t es)
      | Vertices vs => omapo Edges (pipe_vertices ops s dir limit t vs [])
      | _ => Err OperationOnQuery
      end
    | QPipeProperty _ name =>
      match piped with
      | Edges es => omapo EdgeProperties (props_of_edges ops s name es)
      | Vertices vs => omapo VertexProperties (props_of_vertices ops s name vs)
      | _ => Err OperationOnQuery
      end
    | QPipeWithPropertyPresence _ n ex =>
      match piped with
      | Edges es =>
        let? l := indexed_or_err (t_edges_with_property ops s n) in
        Ok (Edges (filter (fun e => flagged ex (contains e l)) es))
      | Vertices vs =>
        let? l := indexed_or_err (t_vertex_ids_with_property ops s n) in
        Ok (Vertices (filter (fun v => flagged ex (contains (vid v) l)) vs))
      | _ => Err OperationOnQuery
      end
    | QPipeWithPropertyValue _ n x eq =>
      match piped with
      | Edges es =>
        let? l := indexed_or_err (t_edges_with_property_value ops s n x) in
        Ok (Edges (filter (fun e => flagged eq (contains e l)) es))
      | Vertices vs =>
        let? l := indexed_or_err (t_vertex_ids_with_property_value ops s n x) in
        Ok (Vertices (filter (fun v => flagged eq (contains (vid v) l)) vs))
      | _ => Err OperationOnQuery
      end
    | QCount _ =>
      match out_size piped with Some n => Ok (Count n) | None => Err OperationOnQuery end
    | _ => Ok piped
    end.

  (** What a stage exports of the result below it. *)
  Definition stage_export (q i : query) (piped : outv) : list outv :=
    match q with QInclude _ => [] | _ => exported i piped end.

  Definition leaf_value (q : query) : outcome outv :=
    let? out := query_exec ops s q [] in let? (v, _) := pop out in Ok v.

  Variable g : graph.
  Variable tlt : ident -> ident -> Prop.
  Variable vmatch : json -> json -> Prop.
  Variable ixok : ident -> Prop.
  Variable bad : uuid -> Prop.
  Hypothesis T : type_order tlt.
  Hypothesis RO : reads_ok ops s g tlt vmatch ixok bad.

  Lemma listing_vertices_eq P l l' : listing vlt P l -> listing vlt P l' -> l = l'.
  Proof.
    intros [S1 H1] [S2 H2]. eapply sorted_ext; eauto using vlt_irrefl, vlt_asym. intros x. now rewrite H1, H2.
  Qed.
  Lemma listing_edges_eq P l l' : listing (elt tlt) P l -> listing (elt tlt) P l' -> l = l'.
  Proof.
    intros [S1 H1] [S2 H2]. apply (@sorted_ext _ (elt tlt) (elt_irrefl T) (elt_asym T)); auto.
    intros x. now rewrite H1, H2.
  Qed.

  Lemma exec_stage q i out : inner_of q = Some i ->
    query_exec ops s q out =
    (let? out1 := query_exec ops s i out in
     let? (p, out2) := pop out1 in
     let? v := stage_value q p in
     Ok (v :: stage_export q i p ++ out2)).
  Proof.
    assert (forall i p out2, re_export i p out2 = exported i p ++ out2) as RE.
    { intros j p out2. unfold re_export, exported. destruct j; reflexivity. }
    destruct q; cbn [inner_of]; intros E; inversion E; subst; clear E; cbn [query_exec stage_value stage_export].
    - destruct (query_exec ops s i out) as [[|p o]|e|]; cbn [obind pop]; auto. now rewrite RE.
    - destruct (query_exec ops s i out) as [[|p o]|e|]; cbn [obind pop]; auto. now rewrite RE.
    - destruct (query_exec ops s i out) as [[|p o]|e|]; cbn [obind pop]; auto. now rewrite RE.
    - destruct (query_exec ops s i out) as [[|p o]|e|]; cbn [obind pop]; auto. now rewrite RE.
    - destruct (query_exec ops s i out) as [[|p o]|e|]; cbn [obind pop]; auto.
    - assert (forall X, X = (let? out1 := query_exec ops s i out in
              let? (piped, out2) := pop out1 in
              let? n := match piped with
                        | Vertices l => Ok (lenN l) | Edges l => Ok (lenN l)
                        | VertexProperties l => Ok (lenN l) | EdgeProperties l => Ok (lenN l)
                        | Count _ => Err OperationOnQuery end in
              Ok (Count n :: re_export i piped out2)) ->
              X = (let? out1 := query_exec ops s i out in
                   let? (p, out2) := pop out1 in
                   let? v := match out_size p with Some n => Ok (Count n) | None => Err OperationOnQuery end in
                   Ok (v :: exported i p ++ out2))) as G.
      { intros X ->. destruct (query_exec ops s i out) as [[|p o]|e|]; cbn [obind pop]; auto.
        destruct p; cbn [obind out_size]; rewrite ?RE; reflexivity. }
      destruct i; try (apply G; reflexivity).
      + destruct (ro_vertex_count RO) as (l & -> & L1). destruct (ro_all_vertices RO) as (l' & Y & L2).
        unfold yields in Y. cbn [query_exec]. rewrite Y. cbn [obind]. rewrite collect_Ok. cbn [obind pop out_size exported app].
        now rewrite (listing_vertices_eq L1 L2).
      + destruct (ro_edge_count RO) as (l & -> & L1). destruct (ro_all_edges RO) as (l' & Y & L2).
        unfold yields in Y. cbn [query_exec]. rewrite Y. cbn [obind]. rewrite collect_Ok. cbn [obind pop out_size exported app].
        now rewrite (listing_edges_eq L1 L2).
  Qed.

  Lemma exec_leaf q out : inner_of q = None ->
    query_exec ops s q out = (let? v := leaf_value q in Ok (v :: out)).
  Proof.
    unfold leaf_value. destruct q; cbn [inner_of]; intros E; try discriminate; cbn [query_exec].
    all: repeat match goal with
         | |- context [obind ?x _] => lazymatch x with
                                      | obind _ _ => fail
                                      | Ok _ => fail
                                      | _ => destruct x as [?|?|]; cbn [obind pop]
                                      end
         end; reflexivity.
  Qed.

  (** Results do not depend on what is already on the output stack. *)
  Lemma exec_frame q : forall out, query_exec ops s q out =
    (let? l := query_exec ops s q [] in Ok (l ++ out)) /\
    (forall l, query_exec ops s q out = Ok l -> exists v ex, l = v :: ex ++ out).
  Proof.
    induction q as [q E|q i E IH] using query_stage_ind; intros out.
    - rewrite !exec_leaf by assumption. destruct (leaf_value q) as [v|e|]; cbn; split; auto; try (intros l H; discriminate).
      intros l H. inversion H. now exists v, [].
    - rewrite !(@exec_stage q i) by assumption. destruct (IH out) as [F1 F2]. destruct (IH []) as [_ F3].
      rewrite F1 in *. destruct (query_exec ops s i []) as [l|e|]; cbn [obind] in *; [|split; [auto|intros l H; discriminate]..].
      destruct (F3 l eq_refl) as (v & ex & ->). rewrite app_nil_r. cbn [app pop obind].
      destruct (stage_value q v) as [w|e|]; cbn [obind]; [|split; [auto|intros l H; discriminate]..].
      split; [cbn [app]; now rewrite <- app_assoc|]. intros l H. inversion H. exists w, (stage_export q i v ++ ex). now rewrite <- app_assoc.
  Qed.

  (** [get] and the value that [delete] and [set_properties] act on, stage by stage. *)
  Lemma get_cases q :
    (exists v ex, query_exec ops s q [] = Ok (v :: rev ex) /\ db_get ops s q = Ok (ex ++ [v]) /\ answer ops s q = Ok v) \/
    (exists e, query_exec ops s q [] = Err e /\ db_get ops s q = Err e /\ answer ops s q = Err e) \/
    (query_exec ops s q [] = Panic /\ db_get ops s q = Panic /\ answer ops s q = Panic).
  Proof.
    unfold answer, db_get. destruct (exec_frame q []) as [_ F].
    destruct (query_exec ops s q []) as [l|e|]; cbn [omapo]; eauto 6.
    destruct (F l eq_refl) as (v & ex & ->). left. exists v, (rev ex). rewrite app_nil_r, rev_involutive. split; [reflexivity|].
    split; [reflexivity|]. cbn [rev]. rewrite rev_app_distr. reflexivity.
  Qed.

  Lemma get_stage q i : inner_of q = Some i ->
    db_get ops s q =
    match db_get ops s i with
    | Ok outs => match rev outs with
                 | p :: ex => let? v := stage_value q p in Ok (rev ex ++ stage_export q i p ++ [v])
                 | [] => Panic
                 end
    | Err e => Err e
    | Panic => Panic
    end.
  Proof.
    intros E. unfold db_get at 1. rewrite (exec_stage q [] E).
    destruct (get_cases i) as [(v & ex & X & -> & _)|[(e & X & -> & _)|(X & -> & _)]]; rewrite X; cbn [obind omapo pop]; auto.
    rewrite rev_app_distr. cbn [rev app]. destruct (stage_value q v) as [w|e|]; cbn [obind omapo]; auto.
    f_equal. cbn [rev]. rewrite rev_app_distr, <- app_assoc. f_equal. f_equal.
    unfold stage_export, exported. destruct q; try reflexivity; destruct i; reflexivity.
  Qed.

  Lemma answer_stage q i : inner_of q = Some i ->
    answer ops s q = (let? p := answer ops s i in stage_value q p).
  Proof.
    intros E. unfold answer. rewrite (get_stage q E).
    destruct (get_cases i) as [(v & ex & X & -> & _)|[(e & X & -> & _)|(X & -> & _)]]; cbn [obind]; auto.
    rewrite rev_app_distr. cbn [rev app obind]. destruct (stage_value q v) as [w|e|]; cbn [obind]; auto.
    rewrite !rev_app_distr. reflexivity.
  Qed.

  (** *** Includes *)

  Theorem get_includes q outs : db_get ops s q = Ok outs ->
    exists ex v, outs = ex ++ [v] /\ answer ops s q = Ok v /\ Forall2 (fun i o => answer ops s i = Ok o) (included q) ex.
  Proof.
    revert outs. induction q as [q E|q i E IH] using query_stage_ind; intros outs G.
    - destruct (get_cases q) as [(v & ex & X & H & A)|[(e & X & H & A)|(X & H & A)]]; rewrite G in H; inversion H; subst.
      exists ex, v. split; [reflexivity|]. split; [assumption|]. rewrite (exec_leaf q [] E) in X.
      destruct (leaf_value q); cbn in X; inversion X as [[X1 X2]]. destruct ex as [|z ex]; [|cbn in X2; destruct (rev ex); discriminate].
      destruct q; try discriminate; constructor.
    - rewrite (get_stage q E) in G. destruct (get_cases i) as [(v & ex & X & Gi & A)|[(e & X & H & A)|(X & H & A)]];
        [|rewrite H in G; discriminate..]. rewrite Gi in G.
      rewrite rev_app_distr in G. cbn [rev app] in G. destruct (stage_value q v) as [w|e|] eqn:Ew; cbn [obind] in G; inversion G; subst.
      destruct (IH _ Gi) as (ex' & v' & Eo & Ai & F). apply app_inj_tail in Eo as [<- <-].
      exists (ex ++ stage_export q i v), w. rewrite rev_involutive. split; [now rewrite app_assoc|]. split.
      + rewrite (answer_stage q E), A. exact Ew.
      + destruct q; cbn [inner_of] in E; inversion E; subst; cbn [included stage_export]; try (rewrite app_nil_r; exact F);
          apply Forall2_app; auto; destruct i; cbn; repeat constructor; assumption.
  Qed.

  Theorem strip_answer q : answer ops s (strip q) = answer ops s q.
  Proof.
    induction q as [q E|q i E IH] using query_stage_ind.
    - destruct q; try discriminate; reflexivity.
    - rewrite (answer_stage q E), <- IH.
      destruct q; cbn [inner_of] in E; inversion E; subst; cbn [strip];
        try (rewrite (@answer_stage _ (strip i)) by reflexivity; reflexivity).
      now destruct (answer ops s (strip i)).
  Qed.

  Lemma value_answer q : (let? out := query_exec ops s q [] in let? (v, _) := pop out in Ok v) = answer ops s q.
  Proof.
    destruct (get_cases q) as [(v & ex & -> & _ & ->)|[(e & -> & _ & ->)|(-> & _ & ->)]]; reflexivity.
  Qed.

  (** [delete] and [set_properties] act on the answer. *)
  Lemma delete_answer q : db_delete ops s q =
    match answer ops s q with
    | Ok (Vertices l) => t_delete_vertices ops s l
    | Ok (Edges l) => t_delete_edges ops s l
    | Ok (VertexProperties l) => t_delete_vertex_properties ops s (vprop_keys l)
    | Ok (EdgeProperties l) => t_delete_edge_properties ops s (eprop_keys l)
    | Ok (Count _) => (Err OperationOnQuery, s)
    | Err e => (Err e, s)
    | Panic => (Panic, s)
    end.
  Proof.
    unfold db_delete. destruct (get_cases q) as [(v & ex & -> & _ & ->)|[(e & -> & _ & ->)|(-> & _ & ->)]]; reflexivity.
  Qed.
  Lemma set_answer q n x : db_set_properties ops s q n x =
    match answer ops s q with
    | Ok (Vertices l) => t_set_vertex_properties ops s (map vid l) n x
    | Ok (Edges l) => t_set_edge_properties ops s l n x
    | Ok _ => (Err OperationOnQuery, s)
    | Err e => (Err e, s)
    | Panic => (Panic, s)
    end.
  Proof.
    unfold db_set_properties. destruct (get_cases q) as [(v & ex & -> & _ & ->)|[(e & -> & _ & ->)|(-> & _ & ->)]]; reflexivity.
  Qed.

  (** *** Counts *)

  Theorem count_answer q : answer ops s (QCount q) =
    match answer ops s q with
    | Ok v => match out_size v with Some n => Ok (Count n) | None => Err OperationOnQuery end
    | Err e => Err e
    | Panic => Panic
    end.
  Proof. rewrite (@answer_stage _ q) by reflexivity. destruct (answer ops s q); reflexivity. Qed.

  (** *** Pipe limits *)

  Lemma edges_at_unique d t v l l' : edges_at tlt g d t v l -> edges_at tlt g d t v l' -> l = l'.
  Proof.
    intros [S1 H1] [S2 H2]. apply (@sorted_ext _ (dir_lt tlt d)); auto.
    - intros x. destruct d; cbn; apply (elt_irrefl T).
    - intros x y. destruct d; cbn; apply (elt_asym T).
    - intros x. now rewrite H1, H2.
  Qed.
  Lemma edges_at_unique_all d t vs : forall ls ls', Forall2 (edges_at tlt g d t) vs ls ->
    Forall2 (edges_at tlt g d t) vs ls' -> ls = ls'.
  Proof.
    induction vs as [|v vs IH]; intros ls ls' F F'; inversion F; inversion F'; subst; [reflexivity|].
    f_equal; [eapply edges_at_unique; eauto|now apply IH].
  Qed.

  Theorem pipe_limit q d t (small big : N) : (small <= big)%N ->
    match answer ops s (QPipe q d big t) with
    | Ok (Edges es) => (lenN es <= big)%N /\ answer ops s (QPipe q d small t) = Ok (Edges (limited small es))
    | Ok (Vertices vs) => (lenN vs <= big)%N /\ answer ops s (QPipe q d small t) = Ok (Vertices (limited small vs))
    | other => answer ops s (QPipe q d small t) = other
    end.
  Proof.
    intros Hle. pose proof (@answer_stage (QPipe q d small t) q eq_refl) as As. pose proof (@answer_stage (QPipe q d big t) q eq_refl) as Ab.
    assert (forall A (l : list A), (lenN (limited big l) <= big)%N /\ limited small l = limited small (limited big l)) as L.
    { intros A l. unfold limited, lenN. split; [pose proof (firstn_le_length (N.to_nat big) l); lia|].
      rewrite firstn_firstn. f_equal. lia. }
    rewrite Ab. destruct (answer ops s q) as [[vs|es|n|ps|ps]|e|]; cbn [obind stage_value] in *; auto.
    - destruct (@pipe_vertices_ok _ ops s g tlt vmatch ixok bad T RO d big t vs []) as (ls & F & E); [unfold lenN; cbn; lia|].
      destruct (@pipe_vertices_ok _ ops s g tlt vmatch ixok bad T RO d small t vs []) as (ls' & F' & E'); [unfold lenN; cbn; lia|].
      rewrite (edges_at_unique_all F' F) in E'. unfold lenN in E, E'. cbn [length app N.of_nat] in E, E'. rewrite N.sub_0_r in E, E'.
      rewrite E' in As. rewrite E. cbn [omapo] in *. destruct (L _ (concat ls)) as [L1 L2]. split; [assumption|]. now rewrite As, L2.
    - destruct (pipe_edges_ok RO d big t es) as (l & K & E).
      destruct (pipe_edges_ok RO d small t es) as (l' & K' & E'). rewrite E' in As. rewrite E. cbn [omapo] in *.
      assert (l' = l) as El by (eapply keeps_det; eauto). rewrite El in As.
      destruct (L _ l) as [L1 L2]. split; [assumption|]. now rewrite As, L2.
  Qed.

  (** *** Range queries and paging *)

  Definition in_range (t : option ident) (start : option uuid) (v : vertex) : Prop :=
    is_vertex g v /\ type_ok t (vt v) /\ match start with Some id => ~ lt (vid v) id | None => True end.

  Theorem range_get limit t start : exists l,
    listing vlt (in_range t start) l /\ db_get ops s (QRangeVertex limit t start) = Ok [Vertices (limited limit l)].
  Proof.
    destruct (@db_get_ok _ ops s g tlt vmatch ixok bad T RO (QRangeVertex limit t start))
      as [(ex & v & E & Hev)|[(e & E & Hf)|(E & Hb)]]; [intros n []| | |].
    - inversion Hev; subst. exists l. auto.
    - inversion Hf; subst; discriminate.
    - inversion Hb; subst; discriminate.
  Qed.

  Theorem all_get : exists l, listing vlt (is_vertex g) l /\ db_get ops s QAllVertex = Ok [Vertices l].
  Proof.
    destruct (@db_get_ok _ ops s g tlt vmatch ixok bad T RO QAllVertex)
      as [(ex & v & E & Hev)|[(e & E & Hf)|(E & Hb)]]; [intros n []| | |].
    - inversion Hev; subst. eauto.
    - inversion Hf; subst; discriminate.
    - inversion Hb; subst; discriminate.
  Qed.

  Definition page (k : N) (t : option ident) (start : uuid) : list vertex :=
    match db_get ops s (QRangeVertex k t (Some start)) with Ok [Vertices vs] => vs | _ => [] end.

  Lemma page_eq k t start l : listing vlt (in_range t (Some start)) l -> page k t start = limited k l.
  Proof.
    intros L. unfold page. destruct (range_get k t (Some start)) as (l' & L' & ->).
    now rewrite (listing_vertices_eq L' L).
  Qed.

  (** Splitting a listing at an element. *)
  Lemma listing_split P l1 v l2 : listing vlt P (l1 ++ v :: l2) ->
    listing vlt (fun w => P w /\ vlt v w) l2 /\ (forall w, In w l1 -> vlt w v).
  Proof.
    intros [Hs Hin].
    assert (forall l1 : list vertex, StronglySorted vlt (l1 ++ v :: l2) ->
              StronglySorted vlt (v :: l2) /\ forall w, In w l1 -> vlt w v) as G.
    { clear. induction l1 as [|a l1 IH]; cbn; intros H; [split; [assumption|intros w []]|].
      inversion H as [|? ? H1 H2]; subst. destruct (IH H1) as [A B]. split; [assumption|].
      intros w [<-|Hw]; [|auto]. rewrite Forall_forall in H2. apply H2, in_or_app. right. now left. }
    destruct (G l1 Hs) as [S2 B]. inversion S2 as [|? ? S3 F]; subst. rewrite Forall_forall in F.
    split; [|assumption]. split; [assumption|]. intros w. split.
    - intros Hw. split; [apply Hin, in_or_app; right; now right|auto].
    - intros [Pw Lw]. apply Hin in Pw. apply in_app_or in Pw as [Hw|[<-|Hw]]; auto.
      + apply B in Hw. exfalso. eapply vlt_asym; eauto.
      + exfalso. eapply vlt_irrefl; eauto.
  Qed.

  Lemma after_last t start vs last rest next :
    listing vlt (in_range t (Some start)) (vs ++ last :: rest) -> next_uuid (vid last) = Ok next ->
    listing vlt (in_range t (Some next)) rest.
  Proof.
    intros L N. pose proof (proj2 L last) as [Lin _].
    assert (In last (vs ++ last :: rest)) as Hl by (apply in_or_app; right; now left).
    specialize (Lin Hl). destruct (listing_split _ _ _ L) as [L2 _].
    eapply listing_iff; [exact L2|]. intros w. unfold in_range, vlt. rewrite (below_next (vid last) (vid w) N).
    destruct (next_uuid_succ _ N) as [Hlt _]. split.
    - intros ((V & Ty & St) & Hw). repeat split; auto. intros [E|E].
      + rewrite E in Hw. exact (lt_irrefl Hw).
      + exact (lt_asym Hw E).
    - intros (V & Ty & Hn).
      assert (lt (vid last) (vid w)) as Hw.
      { apply lt_uval. destruct (N.lt_trichotomy (uval (vid last)) (uval (vid w))) as [Hw|[Hw|Hw]]; auto; exfalso; apply Hn; [left; symmetry; now apply uval_inj|right; now apply lt_uval]. }
      repeat split; auto. destruct Lin as (_ & _ & Ls). intros Hc. apply Ls. eapply lt_trans; eauto.
  Qed.

  Lemma limited_split {A} k (l : list A) : exists r, l = limited k l ++ r.
  Proof. exists (skipn (N.to_nat k) l). unfold limited. now rewrite firstn_skipn. Qed.

  Theorem pages_all k t : (0 < k)%N -> forall start l,
    pages (page k t) start l -> listing vlt (in_range t (Some start)) l.
  Proof.
    intros Hk start l P. induction P as [start E|start vs last next rest E N P IH|start vs last e E N];
      destruct (range_get k t (Some start)) as (full & L & _); rewrite (page_eq k L) in E.
    - destruct full as [|v full]; [assumption|]. unfold limited in E. destruct (N.to_nat k) eqn:K; [lia|discriminate].
    - destruct (limited_split k full) as (r & Ef). rewrite E, <- app_assoc in Ef. cbn in Ef. subst full.
      pose proof (after_last _ _ _ L N) as L2. rewrite (listing_vertices_eq IH L2). exact L.
    - destruct (limited_split k full) as (r & Ef). rewrite E, <- app_assoc in Ef. cbn in Ef. subst full.
      destruct (listing_split _ _ _ L) as [L2 _]. destruct r as [|w r]; [exact L|]. exfalso.
      assert (is_max (vid last)) as M.
      { destruct (next_uuid_total (vid last)) as [(v & Hv)|Hv]; [congruence|now apply next_uuid_max]. }
      destruct (proj1 (proj2 L2 w) (or_introl eq_refl)) as [_ Hw]. now apply M in Hw.
  Qed.

  Theorem pages_exist k t : (0 < k)%N -> forall start, exists l, pages (page k t) start l.
  Proof.
    intros Hk. assert (forall n start full, listing vlt (in_range t (Some start)) full -> length full <= n ->
      exists l, pages (page k t) start l) as G.
    { induction n as [|n IH]; intros start full L Hn.
      - exists []. constructor. rewrite (page_eq k L). destruct full; [|cbn in Hn; lia]. unfold limited. apply firstn_nil.
      - destruct (limited k full) as [|v0 vs0] eqn:E0.
        + exists []. constructor. now rewrite (page_eq k L).
        + assert (exists vs last, page k t start = vs ++ [last]) as (vs & last & E).
          { rewrite (page_eq k L), E0. destruct (@exists_last _ (v0 :: vs0)) as (vs & last & ->); [discriminate|]. eauto. }
          destruct (next_uuid_total (vid last)) as [(next & N)|N]; [|eexists; eapply pages_max; eauto].
          pose proof E as E'. rewrite (page_eq k L) in E'.
          destruct (limited_split k full) as (r & Ef). rewrite E', <- app_assoc in Ef. cbn in Ef. subst full.
          pose proof (after_last _ _ _ L N) as L2. destruct (IH next r L2) as (l & Pl).
          { rewrite app_length in Hn. cbn in Hn. lia. }
          eexists. eapply pages_more; eauto. }
    intros start. destruct (range_get k t (Some start)) as (full & L & _). eapply G; [exact L|reflexivity].
  Qed.

  (** *** Errors of the query engine *)

  Definition kind_agrees (k : option okind) (v : outv) : Prop :=
    match k with
    | Some KVertices | Some KEdges => is_elems v = true
    | Some KCount => exists n, v = Count n
    | Some KVProps | Some KEProps => (exists l, v = VertexProperties l) \/ (exists l, v = EdgeProperties l)
    | None => False
    end.

  Lemma lookup_cases {A} n (x : outcome (option (iter A))) P : lookup g ixok n x P ->
    indexed g n /\ (exists l, indexed_or_err x = Ok l) \/ ~ indexed g n /\ indexed_or_err x = Err NotIndexed.
  Proof.
    intros [[-> N]|(l & -> & I & _)]; [right|left]; split; auto. exists l. cbn. apply collect_Ok.
  Qed.

  Lemma leaf_answer q : inner_of q = None -> answer ops s q = leaf_value q.
  Proof.
    intros E. rewrite <- value_answer. reflexivity.
  Qed.

  Lemma leaf_cases q : inner_of q = None ->
    (forall n, index_of q = Some n -> indexed g n) /\ (exists v, answer ops s q = Ok v /\ kind_agrees (output_type q) v) \/
    (exists n, index_of q = Some n /\ ~ indexed g n /\ answer ops s q = Err NotIndexed).
  Proof.
    intros E. rewrite (leaf_answer q E). unfold leaf_value. destruct q; cbn [inner_of] in E; try discriminate;
      cbn [index_of query_exec output_type].
    - left. split; [discriminate|]. destruct (ro_all_vertices RO) as (l & Y & _). unfold yields in Y. rewrite Y. cbn [obind].
      rewrite collect_Ok. cbn. eauto.
    - left. split; [discriminate|]. destruct start as [id|].
      + destruct (ro_range_vertices RO id) as (l & Y & _). unfold yields in Y. rewrite Y. cbn [obind].
        rewrite filter_t_matches, takeN_map, collect_Ok. cbn. eauto.
      + destruct (ro_all_vertices RO) as (l & Y & _). unfold yields in Y. rewrite Y. cbn [obind].
        rewrite filter_t_matches, takeN_map, collect_Ok. cbn. eauto.
    - left. split; [discriminate|]. rewrite (ro_specific_vertices RO). cbn [obind]. rewrite collect_Ok. cbn. eauto.
    - destruct (lookup_cases (ro_vindex RO name)) as [[I (l & ->)]|[I ->]]; cbn [obind].
      + left. split; [intros n H; inversion H; now subst|]. rewrite (ro_specific_vertices RO). cbn [obind]. rewrite collect_Ok. cbn. eauto.
      + right. eauto.
    - destruct (lookup_cases (ro_vindex_value RO name value)) as [[I (l & ->)]|[I ->]]; cbn [obind].
      + left. split; [intros n H; inversion H; now subst|]. rewrite (ro_specific_vertices RO). cbn [obind]. rewrite collect_Ok. cbn. eauto.
      + right. eauto.
    - left. split; [discriminate|]. destruct (ro_all_edges RO) as (l & Y & _). unfold yields in Y. rewrite Y. cbn [obind].
      rewrite collect_Ok. cbn. eauto.
    - left. split; [discriminate|]. destruct (ro_specific_edges RO edges) as (l & Y & _). unfold yields in Y. rewrite Y. cbn [obind].
      rewrite collect_Ok. cbn. eauto.
    - destruct (lookup_cases (ro_eindex RO name)) as [[I (l & ->)]|[I ->]]; cbn [obind].
      + left. split; [intros n H; inversion H; now subst|]. cbn. eauto.
      + right. eauto.
    - destruct (lookup_cases (ro_eindex_value RO name value)) as [[I (l & ->)]|[I ->]]; cbn [obind].
      + left. split; [intros n H; inversion H; now subst|]. cbn. eauto.
      + right. eauto.
  Qed.

  (** What a stage makes of an input it accepts. *)
  Lemma stage_cases q i p : inner_of q = Some i ->
    accepts q p = false /\ stage_value q p = Err OperationOnQuery \/
    accepts q p = true /\
    ((exists n, index_of q = Some n /\ ~ indexed g n /\ stage_value q p = Err NotIndexed) \/
     (forall n, index_of q = Some n -> indexed g n) /\
     ((exists v, stage_value q p = Ok v /\
         (forall k, kind_agrees (output_type i) p -> output_type q = Some k -> kind_agrees (Some k) v)) \/
      stage_value q p = Panic)).
  Proof.
    intros E. destruct q; cbn [inner_of] in E; inversion E; subst; clear E;
      cbn [accepts stage_value index_of output_type].
    - destruct p as [vs|es|n|ps|ps]; cbn [is_elems]; auto; right; (split; [reflexivity|]); right; (split; [discriminate|]); left.
      + destruct (@pipe_vertices_ok _ ops s g tlt vmatch ixok bad T RO dir limit t vs []) as (ls & _ & ->); [unfold lenN; cbn; lia|].
        cbn [omapo]. eexists. split; [reflexivity|]. intros k K Ek. rewrite Ek in K. destruct k; cbn in K |- *; auto;
          (destruct K as [(l & K)|(l & K)] || destruct K as (l & K)); discriminate.
      + destruct (pipe_edges_ok RO dir limit t es) as (l & _ & ->). cbn [omapo]. eexists. split; [reflexivity|].
        intros k K Ek. rewrite Ek in K. destruct k; cbn in K |- *; auto;
          (destruct K as [(l' & K)|(l' & K)] || destruct K as (l' & K)); discriminate.
    - destruct p as [vs|es|n|ps|ps]; cbn [is_elems]; auto; right; (split; [reflexivity|]); right; (split; [discriminate|]).
      + destruct name as [n|].
        * left. destruct (@props_of_vertices_ok _ ops s g tlt vmatch ixok bad RO (Some n) vs) as (pss & _ & ->); [discriminate|].
          cbn [omapo]. eexists. split; [reflexivity|]. intros k _ Ek. destruct (output_type i) as [[]|]; inversion Ek; cbn; eauto.
        * destruct (forall_bad_dec RO vs) as [B|B].
          -- left. destruct (@props_of_vertices_ok _ ops s g tlt vmatch ixok bad RO None vs) as (pss & _ & ->); [auto|].
             cbn [omapo]. eexists. split; [reflexivity|]. intros k _ Ek. destruct (output_type i) as [[]|]; inversion Ek; cbn; eauto.
          -- right. now rewrite (props_of_vertices_bad RO B).
      + left. destruct (@props_of_edges_ok _ ops s g tlt vmatch ixok bad RO name es) as (pss & _ & ->).
        cbn [omapo]. eexists. split; [reflexivity|]. intros k _ Ek. destruct (output_type i) as [[]|]; inversion Ek; cbn; eauto.
    - destruct p as [vs|es|n|ps|ps]; cbn [is_elems]; auto; right; (split; [reflexivity|]).
      + destruct (lookup_cases (ro_vindex RO name)) as [[I (l & ->)]|[I ->]]; cbn [obind]; [right|left; eauto].
        split; [intros n H; inversion H; now subst|]. left. eexists. split; [reflexivity|].
        intros k K Ek. rewrite Ek in K. destruct k; cbn in K |- *; auto;
          (destruct K as [(l' & K)|(l' & K)] || destruct K as (l' & K)); discriminate.
      + destruct (lookup_cases (ro_eindex RO name)) as [[I (l & ->)]|[I ->]]; cbn [obind]; [right|left; eauto].
        split; [intros n H; inversion H; now subst|]. left. eexists. split; [reflexivity|].
        intros k K Ek. rewrite Ek in K. destruct k; cbn in K |- *; auto;
          (destruct K as [(l' & K)|(l' & K)] || destruct K as (l' & K)); discriminate.
    - destruct p as [vs|es|n|ps|ps]; cbn [is_elems]; auto; right; (split; [reflexivity|]).
      + destruct (lookup_cases (ro_vindex_value RO name value)) as [[I (l & ->)]|[I ->]]; cbn [obind]; [right|left; eauto].
        split; [intros n H; inversion H; now subst|]. left. eexists. split; [reflexivity|].
        intros k K Ek. rewrite Ek in K. destruct k; cbn in K |- *; auto;
          (destruct K as [(l' & K)|(l' & K)] || destruct K as (l' & K)); discriminate.
      + destruct (lookup_cases (ro_eindex_value RO name value)) as [[I (l & ->)]|[I ->]]; cbn [obind]; [right|left; eauto].
        split; [intros n H; inversion H; now subst|]. left. eexists. split; [reflexivity|].
        intros k K Ek. rewrite Ek in K. destruct k; cbn in K |- *; auto;
          (destruct K as [(l' & K)|(l' & K)] || destruct K as (l' & K)); discriminate.
    - right. split; [reflexivity|]. right. split; [discriminate|]. left. eexists. split; [reflexivity|].
      intros k K Ek. now rewrite Ek in K.
    - destruct p; cbn [out_size]; auto; right; (split; [reflexivity|]); right; (split; [discriminate|]); left; eexists;
        (split; [reflexivity|]); intros k _ Ek; inversion Ek; cbn; eauto.
  Qed.

  (** Queries whose stages fit together: those the builders accept. *)
  Fixpoint well_kinded (q : query) : bool :=
    match q with
    | QPipe i _ _ _ | QPipeProperty i _ | QPipeWithPropertyPresence i _ _ | QPipeWithPropertyValue i _ _ _ =>
      well_kinded i && elem_kind (output_type i)
    | QCount i => well_kinded i && countable_kind (output_type i)
    | QInclude i => well_kinded i
    | _ => true
    end.

  Lemma built_well_kinded q : built q -> well_kinded q = true.
  Proof.
    induction 1; cbn [well_kinded] in *; auto;
      match goal with
      | H : _ = Some _ |- _ => unfold pipe_new, pipe_property_new, pipe_presence_new, pipe_value_new, count_new in H;
        match type of H with (if ?b then _ else _) = _ => destruct b eqn:?; inversion H; subst end
      end; cbn [well_kinded]; now rewrite IHbuilt.
  Qed.

  Lemma kind_elems i p : elem_kind (output_type i) = true -> kind_agrees (output_type i) p -> is_elems p = true.
  Proof. destruct (output_type i) as [[]|]; cbn; auto; discriminate. Qed.

  Lemma fits q i p : inner_of q = Some i -> well_kinded q = true -> kind_agrees (output_type i) p -> accepts q p = true.
  Proof.
    intros E W K. destruct q; cbn [inner_of] in E; inversion E; subst; cbn [well_kinded accepts] in *; auto;
      apply andb_true_iff in W as [_ W]; try (eapply kind_elems; eauto; fail).
    destruct (output_type i) as [[]|]; cbn in *; try discriminate; destruct p; try reflexivity; try discriminate;
      destruct K as [(l & K)|(l & K)]; discriminate.
  Qed.

  Lemma wk_inner q i : inner_of q = Some i -> well_kinded q = true -> well_kinded i = true.
  Proof.
    intros E W. destruct q; cbn [inner_of] in E; inversion E; subst; cbn [well_kinded] in *; auto;
      now apply andb_true_iff in W as [W1 W2].
  Qed.

  Lemma wk_typed q : well_kinded q = true -> exists k, output_type q = Some k.
  Proof.
    induction q as [q E|q i E IH] using query_stage_ind; intros W.
    - destruct q; try discriminate; cbn; eauto.
    - destruct q; cbn [inner_of] in E; inversion E; subst; cbn [well_kinded output_type] in *; eauto;
        apply andb_true_iff in W as [W1 W2]; destruct (output_type i) as [[]|]; try discriminate; eauto.
  Qed.

  Theorem well_kinded_answer q : well_kinded q = true ->
    match answer ops s q with
    | Ok v => kind_agrees (output_type q) v /\ forall n, In n (index_names q) -> indexed g n
    | Err e => e = NotIndexed /\ exists n, In n (index_names q) /\ ~ indexed g n
    | Panic => True
    end.
  Proof.
    induction q as [q E|q i E IH] using query_stage_ind; intros W.
    - destruct (leaf_cases q E) as [[I (v & -> & K)]|(n & I & N & ->)].
      + split; [assumption|]. intros n Hn. apply I. destruct q; try discriminate; cbn in Hn; try contradiction; destruct Hn as [<-|[]]; reflexivity.
      + split; [reflexivity|]. exists n. split; [|assumption]. destruct q; try discriminate; inversion I; subst; now left.
    - rewrite (answer_stage q E). specialize (IH (wk_inner q E W)).
      assert (forall n, In n (index_names i) -> In n (index_names q)) as Inc.
      { destruct q; cbn [inner_of] in E; inversion E; subst; cbn; auto. }
      assert (forall n, In n (index_names q) -> index_of q = Some n \/ In n (index_names i)) as Inv.
      { destruct q; cbn [inner_of] in E; inversion E; subst; cbn [index_names index_of]; auto; intros n [<-|Hn]; auto. }
      assert (forall n, index_of q = Some n -> In n (index_names q)) as Inq.
      { destruct q; cbn [inner_of] in E; inversion E; subst; cbn [index_names index_of]; try discriminate; intros n Hn;
          inversion Hn; now left. }
      destruct (answer ops s i) as [p|e|]; cbn [obind]; auto.
      + destruct IH as [K I]. pose proof (fits q p E W K) as A.
        destruct (stage_cases q p E) as [[A' _]|[_ [(n & Hn & N & ->)|[I' [(v & -> & K')| ->]]]]]; auto.
        * congruence.
        * split; [reflexivity|]. eauto.
        * destruct (wk_typed q W) as (k & Ek). split; [rewrite Ek; now apply K'|].
          intros n Hn. destruct (Inv n Hn) as [H|H]; auto.
      + destruct IH as [-> (n & Hn & N)]. eauto.
  Qed.

  (** Any query: NotIndexed only if a consulted name is not indexed. *)
  Theorem not_indexed_sound q : answer ops s q = Err NotIndexed -> exists n, In n (index_names q) /\ ~ indexed g n.
  Proof.
    induction q as [q E|q i E IH] using query_stage_ind; intros A.
    - destruct (leaf_cases q E) as [[I (v & Hv & K)]|(n & I & N & _)]; [congruence|].
      exists n. split; [|assumption]. destruct q; try discriminate; inversion I; subst; now left.
    - rewrite (answer_stage q E) in A. destruct (answer ops s i) as [p|e|]; cbn [obind] in A.
      + destruct (stage_cases q p E) as [[_ H]|[_ [(n & Hn & N & _)|[_ [(v & H & _)|H]]]]]; try congruence.
        exists n. split; [|assumption]. destruct q; try discriminate; inversion Hn; subst; now left.
      + inversion A; subst. destruct (IH eq_refl) as (n & Hn & N). exists n. split; [|assumption].
        destruct q; cbn [inner_of] in E; inversion E; subst; cbn; auto.
      + discriminate.
  Qed.

  Theorem answer_no_panic q : answer ops s q = Panic -> reads_all q = true /\ exists v, is_vertex g v /\ bad (vid v).
  Proof.
    intros A. pose proof (@query_trust _ ops s g tlt vmatch ixok bad T RO (fun _ => False)) as Tr.
    specialize (Tr (fun n l (f : False) => match f with end) (fun n x l (f : False) => match f with end) q False []
                   (fun f => match f with end)). unfold trust in Tr.
    destruct (get_cases q) as [(v & ex & E & _ & A')|[(e & E & _ & A')|(E & _ & A')]]; rewrite A in A'; try discriminate.
    rewrite E in Tr. exact Tr.
  Qed.
End Stages.
