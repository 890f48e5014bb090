(** * C64: reading the same thing twice

    RocksDB answers the same query on the same contents always alike, to the
    order of the elements.  The memory database does so unless the query starts
    from an index lookup: such a lookup is collected into a fresh [HashSet]
    (memory/datastore.rs 77-84, 91-106, 137-144, 151-166), whose order is another
    one each time.  Then the answers are the same up to order as long as no stage
    is cut off by its limit; a stage that is cut off has the same number of
    results, but they may be others. *)
From Coq Require Import Permutation.
From Verif Require Import Base OMap Json Types Util Db Mem Rdb Spec QueryFacts MemFacts MemHist RdbHist
  PropsMem PropsRdb PropsRdbIndex Examples.

Set Implicit Arguments.

(** ** Specification *)

(** Where a query starts. *)
Fixpoint start_of (q : query) : query :=
  match q with
  | QPipe i _ _ _ | QPipeProperty i _ | QPipeWithPropertyPresence i _ _ | QPipeWithPropertyValue i _ _ _
  | QInclude i | QCount i => start_of i
  | q => q
  end.
Definition from_index (q : query) : Prop :=
  match start_of q with
  | QVertexWithPropertyPresence _ | QVertexWithPropertyValue _ _
  | QEdgeWithPropertyPresence _ | QEdgeWithPropertyValue _ _ => True
  | _ => False
  end.

(** The same elements, perhaps in another order. *)
Definition same_elements (v w : outv) : Prop :=
  match v, w with
  | Vertices a, Vertices b => Permutation a b
  | Edges a, Edges b => Permutation a b
  | VertexProperties a, VertexProperties b => Permutation a b
  | EdgeProperties a, EdgeProperties b => Permutation a b
  | Count a, Count b => a = b
  | _, _ => False
  end.
Definition same_answer (r r' : outcome (list outv)) : Prop :=
  match r, r' with
  | Ok l, Ok l' => Forall2 same_elements l l'
  | Err e, Err e' => e = e'
  | Panic, Panic => True
  | _, _ => False
  end.

Definition outv_len (v : outv) : N :=
  match v with
  | Vertices l => lenN l | Edges l => lenN l | VertexProperties l => lenN l | EdgeProperties l => lenN l
  | Count _ => 1
  end.
(** How many elements the last stage gave. *)
Definition given (r : outcome (list outv)) : option N :=
  match r with Ok l => match rev l with v :: _ => Some (outv_len v) | [] => None end | _ => None end.

(** No stage of [q] was cut off: asked for on its own it gives fewer elements than
    its limit. *)
Fixpoint uncut {S} (ops : txn_ops S) (s : S) (q : query) : Prop :=
  match q with
  | QPipe i _ limit _ => uncut ops s i /\ (forall k, given (db_get ops s q) = Some k -> (k < limit)%N)
  | QPipeProperty i _ | QPipeWithPropertyPresence i _ _ | QPipeWithPropertyValue i _ _ _
  | QInclude i | QCount i => uncut ops s i
  | _ => True
  end.

(** ** RocksDB *)
Theorem C64_rdb : forall H enc dec env env' s q,
  db_get (rdb_ops H enc dec env) s q = db_get (rdb_ops H enc dec env') s q.
Proof. reflexivity. Qed.

(** ** Memory *)
Section Memory.
  Variable dbg : bool.
  Variable m : memory.
  Local Notation ops o := (mem_ops dbg o).

  Lemma ord_same (o o' : order) :
    (forall l, Permutation (ord_v o l) (ord_v o' l)) /\ (forall l, Permutation (ord_e o l) (ord_e o' l)).
  Proof.
    split; intros l; [rewrite <- (ord_v_perm o l); apply ord_v_perm|rewrite <- (ord_e_perm o l); apply ord_e_perm].
  Qed.

  (** The four lookups: same error, or the same elements. *)
  Definition looked {A} (r r' : outcome (list A)) : Prop :=
    match r, r' with Ok l, Ok l' => Permutation l l' | Err e, Err e' => e = e' | _, _ => False end.

  Lemma look_v o o' n : looked (indexed_or_err (t_vertex_ids_with_property (ops o) m n)) (indexed_or_err (t_vertex_ids_with_property (ops o') m n)).
  Proof.
    cbn [t_vertex_ids_with_property mem_ops]. unfold mem_vertex_ids_with_property, indexed_or_err. cbn [obind].
    destruct (get n (m_index m)) as [c|]; cbn [option_map]; [|reflexivity]. rewrite !collect_Ok. cbn. apply ord_same.
  Qed.
  Lemma look_vv o o' n x : looked (indexed_or_err (t_vertex_ids_with_property_value (ops o) m n x)) (indexed_or_err (t_vertex_ids_with_property_value (ops o') m n x)).
  Proof.
    cbn [t_vertex_ids_with_property_value mem_ops]. unfold mem_vertex_ids_with_property_value, indexed_or_err. cbn [obind].
    destruct (get n (m_index m)) as [c|]; cbn [option_map]; [|reflexivity]. destruct (c_get x c) as [ms|]; [|cbn; constructor].
    rewrite !collect_Ok. cbn. apply ord_same.
  Qed.
  Lemma look_e o o' n : looked (indexed_or_err (t_edges_with_property (ops o) m n)) (indexed_or_err (t_edges_with_property (ops o') m n)).
  Proof.
    cbn [t_edges_with_property mem_ops]. unfold mem_edges_with_property, indexed_or_err. cbn [obind].
    destruct (get n (m_index m)) as [c|]; cbn [option_map]; [|reflexivity]. rewrite !collect_Ok. cbn. apply ord_same.
  Qed.
  Lemma look_ev o o' n x : looked (indexed_or_err (t_edges_with_property_value (ops o) m n x)) (indexed_or_err (t_edges_with_property_value (ops o') m n x)).
  Proof.
    cbn [t_edges_with_property_value mem_ops]. unfold mem_edges_with_property_value, indexed_or_err. cbn [obind].
    destruct (get n (m_index m)) as [c|]; cbn [option_map]; [|reflexivity]. destruct (c_get x c) as [ms|]; [|cbn; constructor].
    rewrite !collect_Ok. cbn. apply ord_same.
  Qed.

  Lemma contains_perm {A} {O : Ord A} (x : A) l l' : Permutation l l' -> contains x l = contains x l'.
  Proof.
    intros P. destruct (contains x l) eqn:E, (contains x l') eqn:E'; try reflexivity.
    - apply contains_In in E. eapply Permutation_in in E; [|exact P]. apply contains_In in E. congruence.
    - apply contains_In in E'. eapply Permutation_in in E'; [|symmetry; exact P]. apply contains_In in E'. congruence.
  Qed.

  (** A filter stage does not depend on the order. *)
  Lemma filter_look {A B} {O : Ord B} (f : A -> B) (W : list A -> outv) ex (r r' : outcome (list B)) l : looked r r' ->
    (let? k := r in Ok (W (filter (fun x => flagged ex (contains (f x) k)) l))) =
    (let? k := r' in Ok (W (filter (fun x => flagged ex (contains (f x) k)) l))).
  Proof.
    destruct r as [k|e|], r' as [k'|e'|]; cbn; try tauto; [|now intros ->]. intros P. do 2 f_equal.
    apply filter_ext. intros x. now rewrite (@contains_perm B O (f x) k k' P).
  Qed.

  (** Not from an index lookup: exactly the same. *)
  Lemma exec_same o o' q : ~ from_index q -> query_exec (ops o) m q [] = query_exec (ops o') m q [].
  Proof.
    unfold from_index.
    induction q; cbn [start_of]; intros NI; cbn [query_exec]; try reflexivity; try (now destruct (NI I)); try (rewrite (IHq NI); reflexivity).
    - rewrite (IHq NI). destruct (query_exec (ops o') m q []) as [[|p out]|e|]; cbn [obind pop]; try reflexivity.
      assert (match p with
              | Edges es => let? l := indexed_or_err (t_edges_with_property (ops o) m name) in Ok (Edges (filter (fun e => flagged exists_ (contains e l)) es))
              | Vertices vs => let? l := indexed_or_err (t_vertex_ids_with_property (ops o) m name) in Ok (Vertices (filter (fun v => flagged exists_ (contains (vid v) l)) vs))
              | _ => Err OperationOnQuery end =
              match p with
              | Edges es => let? l := indexed_or_err (t_edges_with_property (ops o') m name) in Ok (Edges (filter (fun e => flagged exists_ (contains e l)) es))
              | Vertices vs => let? l := indexed_or_err (t_vertex_ids_with_property (ops o') m name) in Ok (Vertices (filter (fun v => flagged exists_ (contains (vid v) l)) vs))
              | _ => Err OperationOnQuery end) as E.
      { destruct p; try reflexivity; [apply (@filter_look _ _ _ vid Vertices), look_v|apply (@filter_look _ _ _ (fun e => e) Edges), look_e]. }
      now rewrite E.
    - rewrite (IHq NI). destruct (query_exec (ops o') m q []) as [[|p out]|e|]; cbn [obind pop]; try reflexivity.
      assert (match p with
              | Edges es => let? l := indexed_or_err (t_edges_with_property_value (ops o) m name value) in Ok (Edges (filter (fun e => flagged equal (contains e l)) es))
              | Vertices vs => let? l := indexed_or_err (t_vertex_ids_with_property_value (ops o) m name value) in Ok (Vertices (filter (fun v => flagged equal (contains (vid v) l)) vs))
              | _ => Err OperationOnQuery end =
              match p with
              | Edges es => let? l := indexed_or_err (t_edges_with_property_value (ops o') m name value) in Ok (Edges (filter (fun e => flagged equal (contains e l)) es))
              | Vertices vs => let? l := indexed_or_err (t_vertex_ids_with_property_value (ops o') m name value) in Ok (Vertices (filter (fun v => flagged equal (contains (vid v) l)) vs))
              | _ => Err OperationOnQuery end) as E.
      { destruct p; try reflexivity; [apply (@filter_look _ _ _ vid Vertices), look_vv|apply (@filter_look _ _ _ (fun e => e) Edges), look_ev]. }
      now rewrite E.
  Qed.

  (** From an index lookup: the same elements as long as nothing is cut off. *)
  Definition vertex_at (id : uuid) : list vertex := match get id (m_vertices m) with Some t => [Vertex id t] | None => [] end.
  Lemma specific_flat ids : filter_map (fun id => option_map (fun t => Ok (Vertex id t)) (get id (m_vertices m))) ids = map (@Ok vertex) (flat_map vertex_at ids).
  Proof.
    induction ids as [|i ids IH]; [reflexivity|]. cbn [filter_map flat_map]. unfold vertex_at at 1.
    destruct (get i (m_vertices m)) as [t|]; cbn [option_map app map]; [now rewrite IH|exact IH].
  Qed.
  Lemma matches_ok {A} (f : A -> ident) t (l : list A) :
    filter (t_matches f t) (map Ok l) = map Ok (filter (fun x => match t with Some t' => eqb (f x) t' | None => true end) l).
  Proof. induction l as [|x l IH]; [reflexivity|]. cbn [map filter]. destruct t as [t|]; cbn; [destruct (eqb (f x) t); cbn; now rewrite IH|now rewrite IH]. Qed.
  Lemma while_ok {A} (k : A -> bool) l : take_while (ok_or_true k) (map Ok l) = map Ok (take_while k l).
  Proof. induction l as [|x l IH]; [reflexivity|]. cbn. destruct (k x); cbn; congruence. Qed.

  Definition hangs (d : direction) (t : option ident) (v : vertex) : list edge :=
    let lower := Edge (vid v) (match t with Some t' => t' | None => empty_ident end) nil_uuid in
    let own := filter (fun e => match t with Some t' => eqb (et e) t' | None => true end)
                 (take_while (fun e => eqb (eout e) (vid v))
                    (map fst (match d with Outbound => from lower (m_edges m) | Inbound => from lower (m_reversed m) end))) in
    match d with Outbound => own | Inbound => map reversed own end.

  Lemma pipe_flat o d limit t vs : forall acc, (lenN acc <= limit)%N ->
    pipe_vertices (ops o) m d limit t vs acc = Ok (firstn (N.to_nat limit) (acc ++ flat_map (hangs d t) vs)).
  Proof.
    induction vs as [|v vs IH]; intros acc Ha.
    - cbn [pipe_vertices flat_map]. rewrite app_nil_r, firstn_all2; [reflexivity|]. unfold lenN in Ha. lia.
    - rewrite pipe_vertices_step.
      assert (forall (it : iter edge) own, it = map Ok own ->
        filter (t_matches et t) (take_while (ok_or_true (fun e => eqb (eout e) (vid v))) it) =
        map Ok (filter (fun e => match t with Some t' => eqb (et e) t' | None => true end) (take_while (fun e => eqb (eout e) (vid v)) own))) as FT
        by (intros it own ->; now rewrite while_ok, matches_ok).
      set (it := match d with Outbound => t_range_edges (ops o) m _ | Inbound => _ end).
      assert (exists i, it = Ok i /\
        step_edges d t v i = map Ok (hangs d t v)) as (i & Ei & Ej).
      { unfold it, hangs, step_edges. destruct d; cbn [t_range_edges t_range_reversed_edges mem_ops]; unfold mem_range_edges, mem_range_reversed_edges; cbv zeta.
        - eexists. split; [reflexivity|]. apply FT. now rewrite map_map.
        - eexists. split; [reflexivity|]. erewrite FT; [|rewrite <- (map_map fst (@Ok edge)); reflexivity]. now rewrite !map_map. }
      rewrite Ei. cbn [obind]. unfold checked_sub. destruct (N.ltb_spec limit (lenN acc)) as [X|_]; [lia|]. cbn [obind].
      rewrite Ej, takeN_map, collect_Ok, takeN_firstn. cbn [obind flat_map].
      set (new := firstn (N.to_nat (limit - lenN acc)) (hangs d t v)).
      assert (length new = Nat.min (N.to_nat (limit - lenN acc)) (length (hangs d t v))) as Hlen by apply firstn_length.
      destruct (N.leb_spec limit (lenN (acc ++ new))) as [Hfull|Hroom].
      + f_equal. rewrite app_assoc, firstn_app. rewrite lenN_app in Hfull.
        assert (limit <= lenN acc + lenN (hangs d t v))%N as L by (unfold lenN in *; lia).
        replace (N.to_nat limit - length (acc ++ hangs d t v)) with 0 by (rewrite app_length; unfold lenN in *; lia).
        rewrite firstn_O, app_nil_r, firstn_app. unfold new, lenN in *. f_equal.
        * symmetry. apply firstn_all2. lia.
        * f_equal. lia.
      + assert (new = hangs d t v) as En.
        { unfold new. apply firstn_all2. rewrite lenN_app in Hroom. unfold lenN in *. lia. }
        rewrite IH by lia. now rewrite En, app_assoc.
  Qed.

  Definition dest (d : direction) (t : option ident) (e : edge) : list vertex :=
    filter (fun v => match t with Some t' => eqb (vt v) t' | None => true end)
      (vertex_at (match d with Outbound => eout e | Inbound => ein e end)).
  Lemma dest_flat o d limit t es : pipe_edges (ops o) m d limit t es = Ok (firstn (N.to_nat limit) (flat_map (dest d t) es)).
  Proof.
    unfold pipe_edges. cbn [t_specific_vertices mem_ops]. unfold mem_specific_vertices. cbn [obind].
    rewrite specific_flat, matches_ok, takeN_map, collect_Ok, takeN_firstn. do 2 f_equal.
    induction es as [|e es IH]; [reflexivity|]. cbn [map flat_map]. rewrite filter_app, IH. unfold dest. now destruct d.
  Qed.

  (** Properties of the elements, one after the other. *)
  Definition shows_v (name : option ident) (v : vertex) : option (list vprops) :=
    match name with
    | Some n => Some (match get (vid v, n) (m_vprops m) with Some x => [VProps v [NProp n x]] | None => [] end)
    | None => match mem_all_vertex_properties m v with
              | Ok it => match collect it with Ok [] => Some [] | Ok l => Some [VProps v (map (fun p => NProp (fst p) (snd p)) l)] | _ => None end
              | _ => None
              end
    end.
  Definition shows_e (name : option ident) (e : edge) : option (list eprops) :=
    match name with
    | Some n => Some (match get (e, n) (m_eprops m) with Some x => [EProps e [NProp n x]] | None => [] end)
    | None => match mem_all_edge_properties m e with
              | Ok it => match collect it with Ok [] => Some [] | Ok l => Some [EProps e (map (fun p => NProp (fst p) (snd p)) l)] | _ => None end
              | _ => None
              end
    end.
  Fixpoint shown {A B} (f : A -> option (list B)) (l : list A) : option (list B) :=
    match l with
    | [] => Some []
    | x :: r => match f x, shown f r with Some a, Some b => Some (a ++ b) | _, _ => None end
    end.
  Definition or_panic {A} (o : option A) : outcome A := match o with Some x => Ok x | None => Panic end.

  Lemma props_v o name vs : props_of_vertices (ops o) m name vs = or_panic (shown (shows_v name) vs).
  Proof.
    induction vs as [|v vs IH]; [reflexivity|]. cbn [props_of_vertices shown]. rewrite IH. unfold shows_v.
    cbn [t_vertex_property t_all_vertex_properties mem_ops]. unfold mem_vertex_property. destruct name as [n|].
    - cbn [obind]. destruct (get (vid v, n) (m_vprops m)) as [x|]; destruct (shown _ vs) as [b|]; reflexivity.
    - unfold mem_all_vertex_properties. destruct (next_uuid (vid v)) as [nx|e|]; cbn [obind]; try reflexivity.
      rewrite <- map_map with (f := fun kv => (snd (fst kv), snd kv)) (g := Ok), collect_Ok. cbn [obind].
      destruct (map _ (take_while _ _)) as [|p l]; cbn [map]; destruct (shown _ vs) as [b|]; reflexivity.
  Qed.
  Lemma props_e o name es : props_of_edges (ops o) m name es = or_panic (shown (shows_e name) es).
  Proof.
    induction es as [|e es IH]; [reflexivity|]. cbn [props_of_edges shown]. rewrite IH. unfold shows_e.
    cbn [t_edge_property t_all_edge_properties mem_ops]. unfold mem_edge_property. destruct name as [n|].
    - cbn [obind]. destruct (get (e, n) (m_eprops m)) as [x|]; destruct (shown _ es) as [b|]; reflexivity.
    - unfold mem_all_edge_properties. cbn [obind].
      rewrite <- map_map with (f := fun kv => (snd (fst kv), snd kv)) (g := Ok), collect_Ok. cbn [obind].
      destruct (map _ (take_while _ _)) as [|p l]; cbn [map]; destruct (shown _ es) as [b|]; reflexivity.
  Qed.
  Lemma shown_perm {A B} (f : A -> option (list B)) l l' : Permutation l l' ->
    match shown f l, shown f l' with Some a, Some b => Permutation a b | None, None => True | _, _ => False end.
  Proof.
    induction 1 as [|x l l' P IH|x y l|l l' l'' P1 IH1 P2 IH2]; cbn [shown].
    - constructor.
    - destruct (f x) as [a|]; [|exact I]. destruct (shown f l), (shown f l'); try tauto. now apply Permutation_app_head.
    - destruct (f x) as [a|], (f y) as [b|], (shown f l) as [c|]; try exact I. rewrite !app_assoc. apply Permutation_app_tail, Permutation_app_comm.
    - destruct (shown f l), (shown f l'), (shown f l''); try tauto. now transitivity l1.
  Qed.

  Lemma perm_flat {A B} (f : A -> list B) l l' : Permutation l l' -> Permutation (flat_map f l) (flat_map f l').
  Proof. intros P. now apply Permutation_flat_map. Qed.
  Lemma perm_filter {A} (p p' : A -> bool) l l' : (forall x, p x = p' x) -> Permutation l l' -> Permutation (filter p l) (filter p' l').
  Proof.
    intros E. rewrite (filter_ext _ _ E l). induction 1 as [|x l l' P IH|x y l|l l' l'' P1 IH1 P2 IH2]; cbn [filter].
    - constructor.
    - destruct (p' x); auto.
    - destruct (p' x), (p' y); auto; constructor.
    - now transitivity (filter p' l').
  Qed.
  Lemma perm_uncut {A} limit (l l' : list A) : (lenN (firstn (N.to_nat limit) l) < limit)%N -> Permutation l l' ->
    Permutation (firstn (N.to_nat limit) l) (firstn (N.to_nat limit) l').
  Proof.
    intros L P. assert (length l < N.to_nat limit) as L' by (unfold lenN in L; rewrite firstn_length in L; lia).
    rewrite !firstn_all2; [exact P| |lia]. rewrite <- (Permutation_length P). lia.
  Qed.

  (** The outputs are kept with the last one first. *)
  Lemma get_exec o q r : query_exec (ops o) m q [] = r -> db_get (ops o) m q = omapo (@rev outv) r.
  Proof. now intros <-. Qed.

  Definition same_stack (r r' : outcome (list outv)) : Prop :=
    match r, r' with
    | Ok l, Ok l' => l <> [] /\ Forall2 same_elements l l'
    | Err e, Err e' => e = e'
    | Panic, Panic => True
    | _, _ => False
    end.

  (** One more stage on the same elements. *)
  Lemma stage inner (r r' : outcome (list outv)) (f f' : outv -> outcome outv) :
    same_stack r r' ->
    (forall p p' out, r = Ok (p :: out) -> same_elements p p' ->
       match f p, f' p' with Ok v, Ok w => same_elements v w | Err e, Err e' => e = e' | Panic, Panic => True | _, _ => False end) ->
    same_stack (let? out1 := r in let? (piped, out2) := pop out1 in let? v := f piped in Ok (v :: re_export inner piped out2))
               (let? out1 := r' in let? (piped, out2) := pop out1 in let? v := f' piped in Ok (v :: re_export inner piped out2)).
  Proof.
    intros St F. destruct r as [l|e|], r' as [l'|e'|]; cbn in St; try contradiction; cbn [obind]; [|subst; reflexivity|exact I].
    destruct St as [N A]. destruct A as [|p p' out out' Sp A]; [now destruct N|]. cbn [pop obind].
    specialize (F p p' out eq_refl Sp). destruct (f p) as [v|e|], (f' p') as [w|e'|]; try contradiction; cbn [obind]; [|now subst|exact I].
    cbn. split; [discriminate|]. constructor; [exact F|]. unfold re_export. destruct (is_include inner); [now constructor|exact A].
  Qed.

  Lemma given_exec o q v out : query_exec (ops o) m q [] = Ok (v :: out) -> given (db_get (ops o) m q) = Some (outv_len v).
  Proof. intros E. rewrite (get_exec o q E). cbn [omapo given]. now rewrite rev_involutive. Qed.

  (** What a pipe stage does with one value. *)
  Definition hop o d limit t (p : outv) : outcome outv :=
    match p with
    | Edges es => omapo Vertices (pipe_edges (ops o) m d limit t es)
    | Vertices vs => omapo Edges (pipe_vertices (ops o) m d limit t vs [])
    | _ => Err OperationOnQuery
    end.
  Lemma hop_flat o d limit t p : hop o d limit t p =
    match p with
    | Edges es => Ok (Vertices (firstn (N.to_nat limit) (flat_map (dest d t) es)))
    | Vertices vs => Ok (Edges (firstn (N.to_nat limit) (flat_map (hangs d t) vs)))
    | _ => Err OperationOnQuery
    end.
  Proof. destruct p; cbn [hop]; try reflexivity; [now rewrite pipe_flat by (unfold lenN; cbn; lia)|now rewrite dest_flat]. Qed.

  Lemma same_refl v : same_elements v v.
  Proof. destruct v; cbn; reflexivity. Qed.
  Lemma exec_some o q l : query_exec (ops o) m q [] = Ok l -> l <> [].
  Proof.
    destruct q; cbn [query_exec]; intros E;
      repeat (match type of E with
              | obind ?x _ = _ => let y := fresh "y" in destruct x as [y| |]; cbn [obind] in E; try discriminate E; try (is_var y; destruct y as [? ?])
              | match ?x with _ => _ end = _ => destruct x; try discriminate E
              end); try (injection E as <-; discriminate).
    all: destruct l; congruence.
  Qed.

  Lemma exec_stack o o' q : uncut (ops o) m q -> same_stack (query_exec (ops o) m q []) (query_exec (ops o') m q []).
  Proof.
    assert (forall q, ~ from_index q -> same_stack (query_exec (ops o) m q []) (query_exec (ops o') m q [])) as Same.
    { intros q0 NI. rewrite <- (exec_same o o' _ NI). destruct (query_exec (ops o) m q0 []) as [l|e|] eqn:E; cbn; try exact I; [|reflexivity].
      split; [exact (exec_some _ _ E)|]. clear. induction l as [|v l IH]; constructor; [apply same_refl|exact IH]. }
    induction q; intros U; cbn [uncut] in U; try (apply Same; exact (fun x => x)).
    - (* index lookups *)
      cbn [query_exec]. pose proof (look_v o o' name) as L. destruct (indexed_or_err _) as [l|e|], (indexed_or_err (t_vertex_ids_with_property (ops o') m name)) as [l'|e'|]; cbn in L; try contradiction; cbn [obind]; [|exact L].
      cbn [t_specific_vertices mem_ops]. unfold mem_specific_vertices. cbn [obind]. rewrite !specific_flat, !collect_Ok. cbn. split; [discriminate|]. repeat constructor. now apply perm_flat.
    - cbn [query_exec]. pose proof (look_vv o o' name value) as L. destruct (indexed_or_err _) as [l|e|], (indexed_or_err (t_vertex_ids_with_property_value (ops o') m name value)) as [l'|e'|]; cbn in L; try contradiction; cbn [obind]; [|exact L].
      cbn [t_specific_vertices mem_ops]. unfold mem_specific_vertices. cbn [obind]. rewrite !specific_flat, !collect_Ok. cbn. split; [discriminate|]. repeat constructor. now apply perm_flat.
    - cbn [query_exec]. pose proof (look_e o o' name) as L. destruct (indexed_or_err _) as [l|e|], (indexed_or_err (t_edges_with_property (ops o') m name)) as [l'|e'|]; cbn in L; try contradiction; cbn [obind]; [|exact L].
      cbn. split; [discriminate|]. now repeat constructor.
    - cbn [query_exec]. pose proof (look_ev o o' name value) as L. destruct (indexed_or_err _) as [l|e|], (indexed_or_err (t_edges_with_property_value (ops o') m name value)) as [l'|e'|]; cbn in L; try contradiction; cbn [obind]; [|exact L].
      cbn. split; [discriminate|]. now repeat constructor.
    - (* pipe *)
      destruct U as [U C]. pose proof (@given_exec o (QPipe q dir limit t)) as GE. cbn [query_exec] in GE |- *.
      apply (@stage q _ _ (hop o dir limit t) (hop o' dir limit t) (IHq U)).
      intros p p' out E Sp. change (query_exec (ops o) m q [] = Ok (p :: out)) in E. rewrite E in GE. cbn [obind pop] in GE.
      change (forall v out0, (let? value := hop o dir limit t p in Ok (value :: re_export q p out)) = Ok (v :: out0) ->
        given (db_get (ops o) m (QPipe q dir limit t)) = Some (outv_len v)) in GE.
      rewrite hop_flat in GE |- *. rewrite hop_flat. destruct p, p'; cbn in Sp; try contradiction; try reflexivity.
      + apply perm_uncut; [|now apply perm_flat]. apply C. exact (GE _ _ eq_refl).
      + apply perm_uncut; [|now apply perm_flat]. apply C. exact (GE _ _ eq_refl).
    - (* properties *)
      cbn [query_exec].
      apply (@stage q _ _ (fun p => match p with Edges es => omapo EdgeProperties (props_of_edges (ops o) m name es) | Vertices vs => omapo VertexProperties (props_of_vertices (ops o) m name vs) | _ => Err OperationOnQuery end)
                          (fun p => match p with Edges es => omapo EdgeProperties (props_of_edges (ops o') m name es) | Vertices vs => omapo VertexProperties (props_of_vertices (ops o') m name vs) | _ => Err OperationOnQuery end) (IHq U)).
      intros p p' out _ Sp. destruct p, p'; cbn in Sp; try contradiction; try reflexivity.
      + rewrite !props_v. pose proof (shown_perm (shows_v name) Sp) as X. destruct (shown _ l), (shown _ l0); cbn; tauto.
      + rewrite !props_e. pose proof (shown_perm (shows_e name) Sp) as X. destruct (shown _ l), (shown _ l0); cbn; tauto.
    - cbn [query_exec].
      apply (@stage q _ _ (fun p => match p with
              | Edges es => let? l := indexed_or_err (t_edges_with_property (ops o) m name) in Ok (Edges (filter (fun e => flagged exists_ (contains e l)) es))
              | Vertices vs => let? l := indexed_or_err (t_vertex_ids_with_property (ops o) m name) in Ok (Vertices (filter (fun v => flagged exists_ (contains (vid v) l)) vs))
              | _ => Err OperationOnQuery end)
             (fun p => match p with
              | Edges es => let? l := indexed_or_err (t_edges_with_property (ops o') m name) in Ok (Edges (filter (fun e => flagged exists_ (contains e l)) es))
              | Vertices vs => let? l := indexed_or_err (t_vertex_ids_with_property (ops o') m name) in Ok (Vertices (filter (fun v => flagged exists_ (contains (vid v) l)) vs))
              | _ => Err OperationOnQuery end) (IHq U)).
      intros p p' out _ Sp. destruct p, p'; cbn in Sp; try contradiction; try reflexivity.
      + pose proof (look_v o o' name) as L. destruct (indexed_or_err _) as [k|e|], (indexed_or_err (t_vertex_ids_with_property (ops o') m name)) as [k'|e'|]; cbn in L; try contradiction; cbn [obind]; [|exact L].
        cbn. apply perm_filter; [|exact Sp]. intros x. now rewrite (contains_perm (vid x) L).
      + pose proof (look_e o o' name) as L. destruct (indexed_or_err _) as [k|e|], (indexed_or_err (t_edges_with_property (ops o') m name)) as [k'|e'|]; cbn in L; try contradiction; cbn [obind]; [|exact L].
        cbn. apply perm_filter; [|exact Sp]. intros x. now rewrite (contains_perm x L).
    - cbn [query_exec].
      apply (@stage q _ _ (fun p => match p with
              | Edges es => let? l := indexed_or_err (t_edges_with_property_value (ops o) m name value) in Ok (Edges (filter (fun e => flagged equal (contains e l)) es))
              | Vertices vs => let? l := indexed_or_err (t_vertex_ids_with_property_value (ops o) m name value) in Ok (Vertices (filter (fun v => flagged equal (contains (vid v) l)) vs))
              | _ => Err OperationOnQuery end)
             (fun p => match p with
              | Edges es => let? l := indexed_or_err (t_edges_with_property_value (ops o') m name value) in Ok (Edges (filter (fun e => flagged equal (contains e l)) es))
              | Vertices vs => let? l := indexed_or_err (t_vertex_ids_with_property_value (ops o') m name value) in Ok (Vertices (filter (fun v => flagged equal (contains (vid v) l)) vs))
              | _ => Err OperationOnQuery end) (IHq U)).
      intros p p' out _ Sp. destruct p, p'; cbn in Sp; try contradiction; try reflexivity.
      + pose proof (look_vv o o' name value) as L. destruct (indexed_or_err _) as [k|e|], (indexed_or_err (t_vertex_ids_with_property_value (ops o') m name value)) as [k'|e'|]; cbn in L; try contradiction; cbn [obind]; [|exact L].
        cbn. apply perm_filter; [|exact Sp]. intros x. now rewrite (contains_perm (vid x) L).
      + pose proof (look_ev o o' name value) as L. destruct (indexed_or_err _) as [k|e|], (indexed_or_err (t_edges_with_property_value (ops o') m name value)) as [k'|e'|]; cbn in L; try contradiction; cbn [obind]; [|exact L].
        cbn. apply perm_filter; [|exact Sp]. intros x. now rewrite (contains_perm x L).
    - (* include *)
      cbn [query_exec]. specialize (IHq U). destruct (query_exec (ops o) m q []) as [l|e|], (query_exec (ops o') m q []) as [l'|e'|]; cbn in IHq; try contradiction; cbn [obind]; [|now subst|exact I].
      destruct IHq as [N A]. destruct A; [now destruct N|]. cbn. split; [discriminate|]. now constructor.
    - (* count *)
      assert (same_stack
        (let? out1 := query_exec (ops o) m q [] in let? (piped, out2) := pop out1 in
         let? v := (let? n := match piped with Vertices l => Ok (lenN l) | Edges l => Ok (lenN l) | VertexProperties l => Ok (lenN l) | EdgeProperties l => Ok (lenN l) | Count _ => Err OperationOnQuery end in Ok (Count n)) in
         Ok (v :: re_export q piped out2))
        (let? out1 := query_exec (ops o') m q [] in let? (piped, out2) := pop out1 in
         let? v := (let? n := match piped with Vertices l => Ok (lenN l) | Edges l => Ok (lenN l) | VertexProperties l => Ok (lenN l) | EdgeProperties l => Ok (lenN l) | Count _ => Err OperationOnQuery end in Ok (Count n)) in
         Ok (v :: re_export q piped out2))) as St.
      { apply (@stage q _ _
          (fun piped => let? n := match piped with Vertices l => Ok (lenN l) | Edges l => Ok (lenN l) | VertexProperties l => Ok (lenN l) | EdgeProperties l => Ok (lenN l) | Count _ => Err OperationOnQuery end in Ok (Count n))
          (fun piped => let? n := match piped with Vertices l => Ok (lenN l) | Edges l => Ok (lenN l) | VertexProperties l => Ok (lenN l) | EdgeProperties l => Ok (lenN l) | Count _ => Err OperationOnQuery end in Ok (Count n)) (IHq U)).
        intros p p' out _ Sp. destruct p, p'; cbn in Sp; try contradiction; cbn; try reflexivity; unfold lenN; now rewrite (Permutation_length Sp). }
      assert (forall o, query_exec (ops o) m (QCount q) [] =
        match q with
        | QAllVertex => let? n := t_vertex_count (ops o) m in Ok [Count n]
        | QAllEdge => let? n := t_edge_count (ops o) m in Ok [Count n]
        | _ => (let? out1 := query_exec (ops o) m q [] in let? (piped, out2) := pop out1 in
         let? v := (let? n := match piped with Vertices l => Ok (lenN l) | Edges l => Ok (lenN l) | VertexProperties l => Ok (lenN l) | EdgeProperties l => Ok (lenN l) | Count _ => Err OperationOnQuery end in Ok (Count n)) in
         Ok (v :: re_export q piped out2))
        end) as E.
      { intros o1. assert (forall (r : outcome (list outv)),
          (let? out1 := r in let? (piped, out2) := pop out1 in
           let? n := match piped with Vertices l => Ok (lenN l) | Edges l => Ok (lenN l) | VertexProperties l => Ok (lenN l) | EdgeProperties l => Ok (lenN l) | Count _ => Err OperationOnQuery end in
           Ok (Count n :: re_export q piped out2)) =
          (let? out1 := r in let? (piped, out2) := pop out1 in
           let? v := (let? n := match piped with Vertices l => Ok (lenN l) | Edges l => Ok (lenN l) | VertexProperties l => Ok (lenN l) | EdgeProperties l => Ok (lenN l) | Count _ => Err OperationOnQuery end in Ok (Count n)) in
           Ok (v :: re_export q piped out2))) as G.
        { intros [[|p r]|e|]; try reflexivity. destruct p; reflexivity. }
        rewrite <- G. destruct q; reflexivity. }
      rewrite !E. destruct q; try exact St; (split; [discriminate|repeat constructor]).
  Qed.
End Memory.

Lemma same_rev l l' : Forall2 same_elements l l' -> Forall2 same_elements (rev l) (rev l').
Proof.
  induction 1 as [|v w l l' S A IH]; cbn [rev]; [constructor|]. apply Forall2_app; [exact IH|]. now repeat constructor.
Qed.

(** Not from an index lookup: the same answer, in the same order. *)
Theorem C64_mem_exact : forall dbg m ord ord' q, ~ from_index q ->
  db_get (mem_ops dbg ord) m q = db_get (mem_ops dbg ord') m q.
Proof. intros dbg m o o' q NI. unfold db_get. now rewrite (exec_same dbg m o o' q NI). Qed.

(** From an index lookup, nothing cut off: the same elements, the same counts, the
    same error. *)
Theorem C64_mem_uncut : forall dbg m ord ord' q, uncut (mem_ops dbg ord) m q ->
  same_answer (db_get (mem_ops dbg ord) m q) (db_get (mem_ops dbg ord') m q).
Proof.
  intros dbg m o o' q U. pose proof (exec_stack dbg m o o' q U) as X. unfold db_get.
  destruct (query_exec _ m q []) as [l|e|], (query_exec (mem_ops dbg o') m q []) as [l'|e'|]; cbn in X |- *; try contradiction; try assumption.
  now apply same_rev.
Qed.

(** A last stage gives as many elements each time, cut off or not. *)
Theorem C64_mem_number : forall dbg m ord ord' q dir limit t, uncut (mem_ops dbg ord) m q ->
  given (db_get (mem_ops dbg ord) m (QPipe q dir limit t)) = given (db_get (mem_ops dbg ord') m (QPipe q dir limit t)).
Proof.
  intros dbg m o o' q dir limit t U. pose proof (exec_stack dbg m o o' q U) as X. unfold db_get. cbn [query_exec].
  destruct (query_exec _ m q []) as [l|e|], (query_exec (mem_ops dbg o') m q []) as [l'|e'|]; cbn in X; try contradiction; try reflexivity.
  destruct X as [N A]. destruct A as [|p p' out out' Sp A]; [now destruct N|]. cbn [obind pop].
  change (given (omapo (@rev outv) (let? v := hop dbg m o dir limit t p in Ok (v :: re_export q p out))) =
          given (omapo (@rev outv) (let? v := hop dbg m o' dir limit t p' in Ok (v :: re_export q p' out')))).
  rewrite !hop_flat. destruct p, p'; cbn in Sp; try contradiction; try reflexivity; cbn [obind omapo given]; rewrite !rev_involutive; f_equal;
    cbn [outv_len]; unfold lenN; rewrite !firstn_length; do 2 f_equal; apply Permutation_length; now apply perm_flat.
Qed.

(** ** A case, and what does not hold *)
Definition other_order : order := Order (@rev uuid) (@rev edge) (@Permutation_rev uuid) (@Permutation_rev edge).
Definition hrep : list (order * op) :=
  map (pair id_order) [OCreateVertex v1; OCreateVertex v2; OCreateEdge e12; OCreateEdge e21; OIndexProperty n_name;
    OSetProperties (QSpecificVertex [u1; u2]) n_name j_bob].
(** The two vertices with the property come in either order; their edges too; of
    their edges at most one is an arbitrary one. *)
Example C64_case :
  match mem_run false hrep with
  | Some m =>
    let by_name := QVertexWithPropertyPresence n_name in
    db_get (mem_ops false id_order) m by_name = Ok [Vertices [v1; v2]] /\
    db_get (mem_ops false other_order) m by_name = Ok [Vertices [v2; v1]] /\
    uncut (mem_ops false id_order) m (QPipe by_name Outbound 10 None) /\
    db_get (mem_ops false id_order) m (QPipe by_name Outbound 10 None) = Ok [Edges [e12; e21]] /\
    db_get (mem_ops false other_order) m (QPipe by_name Outbound 10 None) = Ok [Edges [e21; e12]] /\
    from_index (QPipe by_name Outbound 10 None) /\ ~ from_index (QPipe (QSpecificVertex [u2; u1]) Outbound 1 None) /\
    db_get (mem_ops false other_order) m (QPipe (QSpecificVertex [u2; u1]) Outbound 1 None) = Ok [Edges [e21]]
  | None => False
  end.
Proof.
  destruct (mem_run false hrep) as [m|] eqn:R; [|discriminate R]. cbv zeta.
  assert (forall q r (o : order), match mem_run false hrep with Some m => db_get (mem_ops false o) m q | None => Panic end = r ->
    db_get (mem_ops false o) m q = r) as K by (intros q r o; now rewrite R).
  assert (db_get (mem_ops false id_order) m (QPipe (QVertexWithPropertyPresence n_name) Outbound 10 None) = Ok [Edges [e12; e21]]) as E by (apply K; reflexivity).
  split; [apply K; reflexivity|]. split; [apply K; reflexivity|].
  split; [split; [exact I|]; intros k; rewrite E; intros [= <-]; reflexivity|].
  split; [exact E|]. split; [apply K; reflexivity|]. split; [exact I|]. split; [exact (fun x => x)|]. apply K; reflexivity.
Qed.

Theorem C64_cut_refuted : ~ (forall dbg h m ord ord' q, mem_run dbg h = Some m ->
  same_answer (db_get (mem_ops dbg ord) m q) (db_get (mem_ops dbg ord') m q)).
Proof.
  intros A.
  assert (match mem_run false hrep with
          | Some m => same_answer (db_get (mem_ops false id_order) m (QPipe (QVertexWithPropertyPresence n_name) Outbound 1 None))
                                  (db_get (mem_ops false other_order) m (QPipe (QVertexWithPropertyPresence n_name) Outbound 1 None))
          | None => True end) as X.
  { destruct (mem_run false hrep) as [m|] eqn:R; [|exact I]. exact (A false hrep m id_order other_order _ R). }
  assert (same_answer (Ok [Edges [e12]]) (Ok [Edges [e21]])) as Y by exact X.
  cbn in Y. inversion Y as [|? ? ? ? P]; subst. cbn in P. apply Permutation_length_1 in P. discriminate P.
Qed.
