(** * Failing reads of the RocksDB datastore: proofs. *)
From Verif Require Import Base OMap Json Types Util Db Rdb RdbFault.

Set Implicit Arguments.

Section May.
  (** [P]: some read may fail. *)
  Variable P : Prop.

  (** A read failed, or nothing changed. *)
  Definition may {A} (f c : outcome A) : Prop := f = c \/ (P /\ f = Err EDatastore).

  (** Iterators: equal up to the first item that failed. *)
  Inductive mayi {A} : iter A -> iter A -> Prop :=
  | mayi_nil : mayi [] []
  | mayi_cons x f c : mayi f c -> mayi (x :: f) (x :: c)
  | mayi_stop a c : P -> mayi (Err EDatastore :: a) c.

  Lemma may_refl A (x : outcome A) : may x x. Proof. now left. Qed.
  Lemma mayi_refl A (l : iter A) : mayi l l.
  Proof. induction l; constructor; auto. Qed.

  Lemma may_bind A B (f c : outcome A) (g h : A -> outcome B) :
    may f c -> (forall x, may (g x) (h x)) -> may (let? x := f in g x) (let? x := c in h x).
  Proof. intros [-> |(p & ->)] G; [|right; auto]. destruct c; cbn; auto; now left. Qed.

  Lemma may_omapo A B (k : A -> B) f c : may f c -> may (omapo k f) (omapo k c).
  Proof. intros [-> |(p & ->)]; [now left|right; auto]. Qed.

  Lemma mayi_collect A (f c : iter A) : mayi f c -> may (collect f) (collect c).
  Proof.
    induction 1 as [|x f c M IH|a c p]; [now left| |right; auto].
    cbn [collect]. apply may_bind; [apply may_refl|]. intros y. apply may_bind; [exact IH|intros; apply may_refl].
  Qed.

  Lemma mayi_for_each A (f c : iter A) (g h : A -> outcome batch) :
    mayi f c -> (forall x, may (g x) (h x)) -> may (for_each f g) (for_each c h).
  Proof.
    intros M G. induction M as [|x f c M IH|a c p]; [now left| |right; auto].
    cbn [for_each]. apply may_bind; [apply may_refl|]. intros y. apply may_bind; [apply G|]. intros b.
    apply may_bind; [exact IH|intros; apply may_refl].
  Qed.

  Lemma may_over A (l : list A) (g h : A -> outcome batch) : (forall x, may (g x) (h x)) -> may (over l g) (over l h).
  Proof. intros G. apply mayi_for_each; [apply mayi_refl|exact G]. Qed.

  Lemma mayi_take_while A (k : A -> bool) f c : mayi f c -> mayi (take_while (ok_or_true k) f) (take_while (ok_or_true k) c).
  Proof.
    induction 1 as [|x f c M IH|a c p]; cbn [take_while]; [constructor| |now constructor].
    destruct (ok_or_true k x); constructor; auto.
  Qed.

  Lemma mayi_filter A (k : outcome A -> bool) f c : k (Err EDatastore) = true -> mayi f c -> mayi (filter k f) (filter k c).
  Proof.
    intros K. induction 1 as [|x f c M IH|a c p]; cbn [filter]; [constructor| |rewrite K; now constructor].
    destruct (k x); [constructor|]; auto.
  Qed.

  Lemma mayi_map A B (k : outcome A -> outcome B) f c : k (Err EDatastore) = Err EDatastore -> mayi f c -> mayi (map k f) (map k c).
  Proof.
    intros K. induction 1 as [|x f c M IH|a c p]; cbn [map]; [constructor|now constructor|rewrite K; now constructor].
  Qed.

  Lemma mayi_takeN A n (f c : iter A) : mayi f c -> mayi (takeN n f) (takeN n c).
  Proof.
    intros M. revert n. induction M as [|x f c M IH|a c p]; intros n; cbn [takeN]; [constructor| |].
    - destruct (N.eqb n 0); constructor; auto.
    - destruct (N.eqb n 0) eqn:E; [|now constructor]. apply N.eqb_eq in E as ->.
      destruct c; cbn [takeN]; constructor.
  Qed.

  Lemma mayi_filter_map A B (F G : outcome A -> option (outcome B)) f c :
    mayi f c -> (forall r, F r = G r \/ (P /\ F r = Some (Err EDatastore))) -> F (Err EDatastore) = Some (Err EDatastore) ->
    mayi (filter_map F f) (filter_map G c).
  Proof.
    intros M FG FE. induction M as [|x f c M IH|a c p]; cbn [filter_map]; [constructor| |rewrite FE; now constructor].
    destruct (FG x) as [-> |(p & ->)]; [|now constructor]. destruct (G x); [constructor|]; auto.
  Qed.

  Lemma mayi_each A B (F G : A -> option (outcome B)) l :
    (forall r, F r = G r \/ (P /\ F r = Some (Err EDatastore))) -> mayi (filter_map F l) (filter_map G l).
  Proof.
    intros FG. induction l as [|x l IH]; cbn [filter_map]; [constructor|].
    destruct (FG x) as [-> |(p & ->)]; [|now constructor]. destruct (G x); [constructor|]; auto.
  Qed.

  Lemma mayi_broken A o (l : list A) : (o <> None -> P) -> mayi (broken o l) (map Ok l).
  Proof.
    intros Q. destruct o as [i|]; cbn [broken]; [|apply mayi_refl].
    assert (p : P) by (apply Q; discriminate). clear Q. revert i. induction l as [|x l IH]; intros i.
    - rewrite firstn_nil. now constructor.
    - destruct i; cbn [firstn map app]; constructor; auto.
  Qed.

  (** ** Queries *)

  (** [T]: numbers of vertices or edges may be wrong. *)
  Section Like.
    Variable T : Prop.
    Definition like (x y : outv) : Prop := x = y \/ (T /\ exists n m, x = Count n /\ y = Count m).
    Definition mayq (f c : outcome (list outv)) : Prop :=
      match f with
      | Ok l => exists l', c = Ok l' /\ Forall2 like l l'
      | Err e => c = Err e \/ (P /\ e = EDatastore)
      | Panic => c = Panic
      end.

    Lemma like_refl x : like x x. Proof. now left. Qed.
    Lemma likes_refl l : Forall2 like l l. Proof. induction l; constructor; auto. apply like_refl. Qed.
    Lemma mayq_ED f c : P -> f = Err EDatastore -> mayq f c. Proof. intros p ->. cbn. auto. Qed.
  End Like.

  (** The reading methods of two transactions, [f] with failing reads. *)
  Record reads_may {A} (f c : txn_ops A) (s : A) : Prop := {
    rm_vcount : exists n m, t_vertex_count f s = Ok n /\ t_vertex_count c s = Ok m /\ (n = m \/ P);
    rm_ecount : exists n m, t_edge_count f s = Ok n /\ t_edge_count c s = Ok m /\ (n = m \/ P);
    rm_all_v : exists a b, t_all_vertices f s = Ok a /\ t_all_vertices c s = Ok b /\ mayi a b;
    rm_range_v : forall i, exists a b, t_range_vertices f s i = Ok a /\ t_range_vertices c s i = Ok b /\ mayi a b;
    rm_spec_v : forall i, exists a b, t_specific_vertices f s i = Ok a /\ t_specific_vertices c s i = Ok b /\ mayi a b;
    rm_vwp : forall n, may (indexed_or_err (t_vertex_ids_with_property f s n)) (indexed_or_err (t_vertex_ids_with_property c s n));
    rm_vwpv : forall n v, may (indexed_or_err (t_vertex_ids_with_property_value f s n v)) (indexed_or_err (t_vertex_ids_with_property_value c s n v));
    rm_all_e : exists a b, t_all_edges f s = Ok a /\ t_all_edges c s = Ok b /\ mayi a b;
    rm_range_e : forall i, exists a b, t_range_edges f s i = Ok a /\ t_range_edges c s i = Ok b /\ mayi a b;
    rm_range_r : forall i, exists a b, t_range_reversed_edges f s i = Ok a /\ t_range_reversed_edges c s i = Ok b /\ mayi a b;
    rm_spec_e : forall i, exists a b, t_specific_edges f s i = Ok a /\ t_specific_edges c s i = Ok b /\ mayi a b;
    rm_ewp : forall n, may (indexed_or_err (t_edges_with_property f s n)) (indexed_or_err (t_edges_with_property c s n));
    rm_ewpv : forall n v, may (indexed_or_err (t_edges_with_property_value f s n v)) (indexed_or_err (t_edges_with_property_value c s n v));
    rm_vp : forall v n, may (t_vertex_property f s v n) (t_vertex_property c s v n);
    rm_vps : forall v, may (t_all_vertex_properties f s v) (t_all_vertex_properties c s v);
    rm_ep : forall v n, may (t_edge_property f s v n) (t_edge_property c s v n);
    rm_eps : forall v, may (t_all_edge_properties f s v) (t_all_edge_properties c s v) }.

  Section Q.
    Context {A : Type}.
    Variables (f c : txn_ops A) (s : A).
    Hypothesis R : reads_may f c s.

    Lemma may_iter B C (x y : outcome (iter B)) (g h : iter B -> outcome C) :
      (exists a b, x = Ok a /\ y = Ok b /\ mayi a b) -> (forall a b, mayi a b -> may (g a) (h b)) ->
      may (let? it := x in g it) (let? it := y in h it).
    Proof. intros (a & b & -> & -> & M) G. cbn. auto. Qed.

    Lemma t_matches_err B (k : B -> ident) t : t_matches k t (Err EDatastore) = true.
    Proof. now destruct t. Qed.

    Lemma pipe_vertices_may dir limit t vs es : may (pipe_vertices f s dir limit t vs es) (pipe_vertices c s dir limit t vs es).
    Proof.
      revert es. induction vs as [|v r IH]; intros es; [apply may_refl|]. cbn [pipe_vertices].
      assert (X : forall a b, mayi a b ->
        may (let it := take_while (ok_or_true (fun e => eqb (eout e) (vid v))) a in
             let it := filter (t_matches et t) it in
             let it := match dir with Inbound => map (omapo reversed) it | Outbound => it end in
             let? n := checked_sub limit (lenN es) in
             let? new := collect (takeN n it) in
             let edges' := es ++ new in
             if (limit <=? lenN edges')%N then Ok edges' else pipe_vertices f s dir limit t r edges')
            (let it := take_while (ok_or_true (fun e => eqb (eout e) (vid v))) b in
             let it := filter (t_matches et t) it in
             let it := match dir with Inbound => map (omapo reversed) it | Outbound => it end in
             let? n := checked_sub limit (lenN es) in
             let? new := collect (takeN n it) in
             let edges' := es ++ new in
             if (limit <=? lenN edges')%N then Ok edges' else pipe_vertices c s dir limit t r edges')).
      { intros a b M. cbv zeta. apply may_bind; [apply may_refl|]. intros n. apply may_bind.
        - apply mayi_collect, mayi_takeN. destruct dir; [|apply mayi_map; [reflexivity|]];
            (apply mayi_filter; [apply t_matches_err|apply mayi_take_while; exact M]).
        - intros new. destruct (limit <=? lenN (es ++ new))%N; [apply may_refl|apply IH]. }
      destruct dir; (apply may_iter; [|exact X]); [apply (rm_range_e R)|apply (rm_range_r R)].
    Qed.

    Lemma pipe_edges_may dir limit t es : may (pipe_edges f s dir limit t es) (pipe_edges c s dir limit t es).
    Proof.
      unfold pipe_edges. apply may_iter; [apply (rm_spec_v R)|]. intros a b M.
      apply mayi_collect, mayi_takeN, mayi_filter; [apply t_matches_err|exact M].
    Qed.

    Lemma props_v_may name vs : may (props_of_vertices f s name vs) (props_of_vertices c s name vs).
    Proof.
      induction vs as [|v r IH]; [apply may_refl|]. cbn [props_of_vertices]. apply may_bind.
      - destruct name as [n|]; (apply may_bind; [|intros; apply may_refl]); [apply (rm_vp R)|apply (rm_vps R)].
      - intros p. apply may_bind; [exact IH|intros; apply may_refl].
    Qed.
    Lemma props_e_may name vs : may (props_of_edges f s name vs) (props_of_edges c s name vs).
    Proof.
      induction vs as [|v r IH]; [apply may_refl|]. cbn [props_of_edges]. apply may_bind.
      - destruct name as [n|]; (apply may_bind; [|intros; apply may_refl]); [apply (rm_ep R)|apply (rm_eps R)].
      - intros p. apply may_bind; [exact IH|intros; apply may_refl].
    Qed.

    Variable T : Prop.
    Notation mayq := (mayq T). Notation like := (like T).

    (** One value computed by [x] / [y] and pushed on related outputs. *)
    Lemma mayq_push (x y : outcome outv) (k k' : list outv) :
      may x y -> Forall2 like k k' -> mayq (let? v := x in Ok (v :: k)) (let? v := y in Ok (v :: k')).
    Proof.
      intros [-> |(p & ->)] K; [|cbn; auto]. destruct y as [v|e|]; cbn; auto.
      eexists; split; [reflexivity|]. constructor; [apply like_refl|exact K].
    Qed.

    Lemma mayq_bind (x y : outcome (list outv)) (g h : list outv -> outcome (list outv)) :
      mayq x y -> (forall l l', Forall2 like l l' -> mayq (g l) (h l')) -> mayq (let? l := x in g l) (let? l := y in h l).
    Proof.
      intros M G. destruct x as [l|e|]; cbn in M.
      - destruct M as (l' & -> & L). cbn. auto.
      - destruct M as [-> |(p & ->)]; cbn; auto.
      - subst y. reflexivity.
    Qed.

    Lemma mayq_pop l l' (g h : outv * list outv -> outcome (list outv)) :
      Forall2 like l l' -> (forall v v' k k', like v v' -> Forall2 like k k' -> mayq (g (v, k)) (h (v', k'))) ->
      mayq (let? x := pop l in g x) (let? x := pop l' in h x).
    Proof. intros L G. destruct L; cbn; auto. Qed.

    Lemma re_export_like inner v v' k k' : like v v' -> Forall2 like k k' ->
      Forall2 like (re_export inner v k) (re_export inner v' k').
    Proof. intros V K. unfold re_export. destruct (is_include inner); [constructor|]; auto. Qed.

    (** Queries that count all vertices or all edges. *)
    Fixpoint tallies (q : query) : bool :=
      match q with
      | QCount QAllVertex | QCount QAllEdge => true
      | QCount i | QPipe i _ _ _ | QPipeProperty i _ | QPipeWithPropertyPresence i _ _
      | QPipeWithPropertyValue i _ _ _ | QInclude i => tallies i
      | _ => false
      end.

    Lemma mayq_count v v' : like v v' -> may
      (match v with Vertices l => Ok (lenN l) | Edges l => Ok (lenN l) | VertexProperties l => Ok (lenN l)
                  | EdgeProperties l => Ok (lenN l) | Count _ => Err OperationOnQuery end)
      (match v' with Vertices l => Ok (lenN l) | Edges l => Ok (lenN l) | VertexProperties l => Ok (lenN l)
                  | EdgeProperties l => Ok (lenN l) | Count _ => Err OperationOnQuery end).
    Proof. intros [-> |(_ & n & m & -> & ->)]; now left. Qed.

    Lemma mayq_push1 X (x y : outcome X) (g : X -> outv) (k k' : list outv) :
      may x y -> Forall2 like k k' -> mayq (let? l := x in Ok (g l :: k)) (let? l := y in Ok (g l :: k')).
    Proof.
      intros [-> |(p & ->)] K; [|cbn; auto]. destruct y as [v|e|]; cbn; auto.
      eexists; split; [reflexivity|]. constructor; [apply like_refl|exact K].
    Qed.

    Lemma tally_may (x y : outcome N) out out' :
      (P -> T) -> Forall2 like out out' -> (exists n m, x = Ok n /\ y = Ok m /\ (n = m \/ P)) ->
      mayq (let? n := x in Ok (Count n :: out)) (let? n := y in Ok (Count n :: out')).
    Proof.
      intros PT L (n & m & -> & -> & E). cbn. eexists; split; [reflexivity|]. constructor; [|exact L].
      destruct E as [-> |p]; [apply like_refl|]. right. split; [auto|eauto].
    Qed.

    Lemma query_may q : (tallies q = true -> P -> T) -> forall out out', Forall2 like out out' ->
      mayq (query_exec f s q out) (query_exec c s q out').
    Proof.
      induction q as [ |limit t start|ids|n|n v| |es|n|n v|inner IH dir limit t|inner IH name|inner IH n ex|inner IH n x eq|inner IH|inner IH];
        intros TT out out' L; cbn [query_exec].
      - destruct (rm_all_v R) as (a & b & -> & -> & M). cbn [obind].
        apply mayq_push1; [|exact L]. apply mayi_collect, M.
      - assert (X : exists a b, (match start with Some id => t_range_vertices f s id | None => t_all_vertices f s end) = Ok a /\
                     (match start with Some id => t_range_vertices c s id | None => t_all_vertices c s end) = Ok b /\ mayi a b)
          by (destruct start; [apply (rm_range_v R)|apply (rm_all_v R)]).
        destruct X as (a & b & -> & -> & M). cbn [obind].
        apply mayq_push1; [|exact L].
        apply mayi_collect, mayi_takeN, mayi_filter; [apply t_matches_err|exact M].
      - destruct (rm_spec_v R ids) as (a & b & -> & -> & M). cbn [obind].
        apply mayq_push1; [|exact L]. apply mayi_collect, M.
      - destruct (rm_vwp R n) as [-> |(p & ->)]; [|apply mayq_ED; auto].
        destruct (indexed_or_err (t_vertex_ids_with_property c s n)) as [ids|e|]; cbn [obind]; [|cbn; auto..].
        destruct (rm_spec_v R ids) as (a & b & -> & -> & M). cbn [obind].
        apply mayq_push1; [|exact L]. apply mayi_collect, M.
      - destruct (rm_vwpv R n v) as [-> |(p & ->)]; [|apply mayq_ED; auto].
        destruct (indexed_or_err (t_vertex_ids_with_property_value c s n v)) as [ids|e|]; cbn [obind]; [|cbn; auto..].
        destruct (rm_spec_v R ids) as (a & b & -> & -> & M). cbn [obind].
        apply mayq_push1; [|exact L]. apply mayi_collect, M.
      - destruct (rm_all_e R) as (a & b & -> & -> & M). cbn [obind].
        apply mayq_push1; [|exact L]. apply mayi_collect, M.
      - destruct (rm_spec_e R es) as (a & b & -> & -> & M). cbn [obind].
        apply mayq_push1; [|exact L]. apply mayi_collect, M.
      - apply mayq_push1; [|exact L]. apply (rm_ewp R).
      - apply mayq_push1; [|exact L]. apply (rm_ewpv R).
      - apply mayq_bind; [apply (IH TT), L|]. intros l l' LL. apply mayq_pop; [exact LL|]. intros v v' k k' V K.
        apply mayq_push; [|apply re_export_like; auto].
        destruct V as [-> |(_ & n & m & -> & ->)]; [|apply may_refl].
        destruct v'; try apply may_refl; apply may_omapo; [apply pipe_vertices_may|apply pipe_edges_may].
      - apply mayq_bind; [apply (IH TT), L|]. intros l l' LL. apply mayq_pop; [exact LL|]. intros v v' k k' V K.
        apply mayq_push; [|apply re_export_like; auto].
        destruct V as [-> |(_ & n & m & -> & ->)]; [|apply may_refl].
        destruct v'; try apply may_refl; apply may_omapo; [apply props_v_may|apply props_e_may].
      - apply mayq_bind; [apply (IH TT), L|]. intros l l' LL. apply mayq_pop; [exact LL|]. intros v v' k k' V K.
        apply mayq_push; [|apply re_export_like; auto].
        destruct V as [-> |(_ & m1 & m2 & -> & ->)]; [|apply may_refl].
        destruct v'; try apply may_refl; (apply may_bind; [|intros; apply may_refl]); [apply (rm_vwp R)|apply (rm_ewp R)].
      - apply mayq_bind; [apply (IH TT), L|]. intros l l' LL. apply mayq_pop; [exact LL|]. intros v v' k k' V K.
        apply mayq_push; [|apply re_export_like; auto].
        destruct V as [-> |(_ & m1 & m2 & -> & ->)]; [|apply may_refl].
        destruct v'; try apply may_refl; (apply may_bind; [|intros; apply may_refl]); [apply (rm_vwpv R)|apply (rm_ewpv R)].
      - apply mayq_bind; [apply (IH TT), L|]. intros l l' LL. apply mayq_pop; [exact LL|]. intros v v' k k' V K.
        cbn. eexists; split; [reflexivity|]. constructor; auto.
      - assert (D : mayq (let? out1 := query_exec f s inner out in
                          let? (piped, out2) := pop out1 in
                          let? n := match piped with Vertices l => Ok (lenN l) | Edges l => Ok (lenN l) | VertexProperties l => Ok (lenN l)
                                      | EdgeProperties l => Ok (lenN l) | Count _ => Err OperationOnQuery end in
                          Ok (Count n :: re_export inner piped out2))
                         (let? out1 := query_exec c s inner out' in
                          let? (piped, out2) := pop out1 in
                          let? n := match piped with Vertices l => Ok (lenN l) | Edges l => Ok (lenN l) | VertexProperties l => Ok (lenN l)
                                      | EdgeProperties l => Ok (lenN l) | Count _ => Err OperationOnQuery end in
                          Ok (Count n :: re_export inner piped out2))).
        { apply mayq_bind.
          - apply IH; [|exact L]. intros X. apply TT. destruct inner; auto; discriminate.
          - intros l l' LL. apply mayq_pop; [exact LL|]. intros v v' k k' V K.
            destruct (mayq_count V) as [-> |(p & ->)]; [|apply mayq_ED; auto].
            match goal with |- mayq (let? n := ?e in _) _ => destruct e as [n|e'|] eqn:E end; cbn [obind]; [|cbn; auto..].
            cbn. eexists; split; [reflexivity|]. constructor; [apply like_refl|apply re_export_like; auto]. }
        destruct inner; try exact D.
        + apply tally_may; auto. apply (rm_vcount R).
        + apply tally_may; auto. apply (rm_ecount R).
    Qed.
  End Q.
End May.
