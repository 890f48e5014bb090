(** * Crashes and reopening of the RocksDB datastore. *)
From Verif Require Import Base OMap Json Types Util Db Rdb Spec QueryFacts SpecFacts QueryTrust JsonFacts UtilFacts
  MemFacts MemRefine MemHist KeyFacts RdbSpec RdbRep RdbWrite RdbPut RdbRefine RdbGraph RdbHist.

Set Implicit Arguments.

(** ** The metadata entry round-trips *)

Lemma le_value_bytes k : forall n, (n < 256 ^ N.of_nat k)%N -> le_value (le_bytes k n) = n.
Proof.
  induction k as [|k IH]; intros n Hn; cbn [le_bytes le_value].
  - change (256 ^ N.of_nat 0)%N with 1%N in Hn. lia.
  - rewrite bN_byte_of. rewrite Nat2N.inj_succ, N.pow_succ_r' in Hn. rewrite IH by (apply N.div_lt_upper_bound; lia).
    pose proof (N.div_mod n 256 ltac:(discriminate)). lia.
Qed.
Lemma le_value_le64 n : (n < 2 ^ 64)%N -> le_value (le64 n) = n.
Proof. intros Hn. apply le_value_bytes. exact Hn. Qed.

Lemma unbin_str_ok i r : unbin_str (bin_str (ib i) ++ r) = Ok (i, r).
Proof.
  unfold unbin_str, bin_str. rewrite <- app_assoc, read_exact_app by apply le64_length.
  pose proof (ib_length i) as Hl. rewrite le_value_le64 by (unfold lenN; lia).
  unfold lenN. rewrite Nat2N.id, read_exact_app by reflexivity. now rewrite ib_utf8, mk_ident_of.
Qed.
Lemma unbin_n_ok l : unbin_n (length l) (flat_map (fun i => bin_str (ib i)) l) = Ok l.
Proof.
  induction l as [|i l IH]; cbn [length unbin_n flat_map]; [reflexivity|].
  rewrite unbin_str_ok. cbn [obind]. now rewrite IH.
Qed.
Lemma flat_map_bin_length l : length l <= length (flat_map (fun i => bin_str (ib i)) l).
Proof.
  induction l as [|i l IH]; cbn [flat_map length]; [lia|]. rewrite app_length. unfold bin_str at 1.
  rewrite app_length, le64_length. lia.
Qed.

Lemma unbin_idents_ok l : (lenN l < 2 ^ 64)%N -> unbin_idents (bin_idents l) = Ok (fold_left (fun m i => add i m) l empty).
Proof.
  intros Hl. unfold unbin_idents, bin_idents. rewrite read_exact_app by apply le64_length.
  rewrite le_value_le64 by assumption.
  assert ((lenN (flat_map (fun i => bin_str (ib i)) l) <? lenN l)%N = false) as ->.
  { apply N.ltb_ge. unfold lenN. pose proof (flat_map_bin_length l). lia. }
  unfold lenN. rewrite Nat2N.id, unbin_n_ok. reflexivity.
Qed.

Lemma add_keys_perm {K} {O : Ord K} (ix : oset K) l : Permutation (keys ix) l -> fold_left (fun m i => add i m) l empty = ix.
Proof.
  intros P. apply oset_ext. intros k. rewrite mem_fold_add. cbn. rewrite orb_false_r.
  destruct (mem k ix) eqn:E.
  - apply inb_In. eapply Permutation_in; [exact P|]. now apply keys_In.
  - destruct (inb k l) eqn:F; [|reflexivity]. apply inb_In in F. eapply Permutation_in in F; [|apply Permutation_sym, P].
    apply keys_In in F. congruence.
Qed.

Section Crash.
  Variable H : list byte -> N.
  Variable enc : json -> bytes.
  Variable dec : bytes -> option json.
  Notation ops := (rdb_ops H enc dec).
  Notation run := (rdb_run H enc dec).

  (** ** Each call writes at most one batch *)

  Definition one_write (s s' : rstate) : Prop :=
    r_db s' = r_db s /\ r_log s' = r_log s \/
    exists b, r_db s' = apply_batch b (r_db s) /\ r_log s' = r_log s ++ [b].

  Lemma one_write_refl s : one_write s s.
  Proof. left. auto. Qed.
  Lemma write_built_one env s b : one_write s (snd (write_built env s b)).
  Proof.
    unfold write_built, write. destruct b as [b|e|]; [destruct (wok env)|..]; cbn; try apply one_write_refl.
    right. eexists. split; reflexivity.
  Qed.
  Lemma create_vertex_one env s v : one_write s (snd (rdb_create_vertex H env s v)).
  Proof.
    unfold rdb_create_vertex, write. destruct (vertex_exists H (r_db s) (vid v)); [apply one_write_refl|].
    destruct (wok env); cbn [snd]; [|apply one_write_refl]. right. eexists. split; reflexivity.
  Qed.
  Lemma create_edge_one env s e : one_write s (snd (rdb_create_edge H env s e)).
  Proof.
    unfold rdb_create_edge, write. destruct (_ || _); [apply one_write_refl|].
    destruct (wok env); cbn [snd]; [|apply one_write_refl]. right. eexists. split; reflexivity.
  Qed.
  Lemma index_one env s n : one_write s (snd (rdb_index_property H dec env s n)).
  Proof.
    unfold rdb_index_property. destruct (mem n (r_indexed s)); [apply one_write_refl|].
    match goal with |- one_write s (snd (write_built env ?s1 ?b)) => pose proof (write_built_one env s1 b) as W end.
    exact W.
  Qed.

  Lemma exec_one_write env s o : one_write s (snd (exec (ops env) s o)).
  Proof.
    destruct o; cbn [exec resw snd].
    - apply create_vertex_one.
    - unfold db_create_vertex_from_type. cbn. pose proof (create_vertex_one env s (Vertex id t)) as W.
      destruct (rdb_create_vertex H env s (Vertex id t)) as [[[]|e|] s1]; exact W.
    - apply create_edge_one.
    - apply one_write_refl.
    - unfold db_delete. destruct (let? out := query_exec (ops env) s q [] in pop out) as [[[l|l|l|l|l] rest]|e|];
        try apply one_write_refl; apply write_built_one.
    - unfold db_set_properties. destruct (let? out := query_exec (ops env) s q [] in pop out) as [[[l|l|l|l|l] rest]|e|];
        try apply one_write_refl; apply write_built_one.
    - apply write_built_one.
    - apply index_one.
    - apply one_write_refl.
    - apply write_built_one.
    - apply write_built_one.
    - apply write_built_one.
    - apply write_built_one.
    - apply write_built_one.
    - apply write_built_one.
  Qed.

  (** ** The indexed names: whatever was passed to [index_property] *)

  Definition next_indexed (ix : oset ident) (o : op) : oset ident :=
    match o with OIndexProperty n => add n ix | _ => ix end.

  Lemma add_present {K} {O : Ord K} (n : K) (ix : oset K) : mem n ix = true -> add n ix = ix.
  Proof. intros E. apply set_same. now apply get_oset. Qed.

  Lemma write_built_ix env s b : r_indexed (snd (write_built env s b)) = r_indexed s.
  Proof. unfold write_built, write. destruct b as [b|e|]; [destruct (wok env)|..]; reflexivity. Qed.

  Lemma exec_indexed env s o : r_indexed (snd (exec (ops env) s o)) = next_indexed (r_indexed s) o.
  Proof.
    destruct o; cbn [exec resw snd next_indexed]; try apply write_built_ix.
    - cbn. unfold rdb_create_vertex, write. destruct (vertex_exists H (r_db s) (vid v)); [reflexivity|].
      destruct (wok env); reflexivity.
    - unfold db_create_vertex_from_type. cbn. unfold rdb_create_vertex, write. cbn [vid].
      destruct (vertex_exists H (r_db s) id); [reflexivity|]. destruct (wok env); reflexivity.
    - cbn. unfold rdb_create_edge, write. destruct (_ || _); [reflexivity|]. destruct (wok env); reflexivity.
    - reflexivity.
    - unfold db_delete. destruct (let? out := query_exec (ops env) s q [] in pop out) as [[[l|l|l|l|l] rest]|e|];
        try reflexivity; apply write_built_ix.
    - unfold db_set_properties. destruct (let? out := query_exec (ops env) s q [] in pop out) as [[[l|l|l|l|l] rest]|e|];
        try reflexivity; apply write_built_ix.
    - cbn. unfold rdb_index_property. destruct (mem name (r_indexed s)) eqn:E; [symmetry; now apply add_present|].
      rewrite write_built_ix. reflexivity.
    - reflexivity.
  Qed.

  Definition index_calls (h : list (renv * op)) : list ident :=
    flat_map (fun x => match snd x with OIndexProperty n => [n] | _ => [] end) h.

  Lemma index_calls_app h h' : index_calls (h ++ h') = index_calls h ++ index_calls h'.
  Proof. apply flat_map_app. Qed.

  Lemma run_indexed h n : mem n (r_indexed (run h)) = true <-> In n (index_calls h).
  Proof.
    induction h as [|x h IH] using rev_ind; [cbn; split; [discriminate|intros []]|].
    rewrite rdb_run_snoc, exec_indexed, index_calls_app, in_app_iff, <- IH. cbn.
    destruct (snd x); cbn; try tauto. rewrite mem_add, orb_true_iff, eqb_eq. intuition.
  Qed.

  Lemma index_calls_length h : length (index_calls h) <= length h.
  Proof.
    unfold index_calls. induction h as [|x h IH]; cbn; [lia|]. destruct (snd x); cbn; lia.
  Qed.

  Lemma indexed_size h : length (keys (r_indexed (run h))) <= length h.
  Proof.
    etransitivity; [|apply index_calls_length]. apply NoDup_incl_length; [apply keys_NoDup|].
    intros n Hn. apply keys_In in Hn. now apply run_indexed.
  Qed.

  (** ** The log is the database *)

  Definition run_from (s : rstate) (h : list (renv * op)) : rstate :=
    fold_left (fun s x => snd (rdb_step H enc dec s x)) h s.
  Definition replay (d : db) (log : list batch) : db := fold_left (fun d b => apply_batch b d) log d.

  Lemma run_from_snoc s h x : run_from s (h ++ [x]) = snd (exec (ops (fst x)) (run_from s h) (snd x)).
  Proof. unfold run_from. now rewrite fold_left_app. Qed.

  (** The database a crash leaves: the batches that reached the disk are a
      prefix of those written. *)
  Lemma replay_log s0 h : r_log s0 = [] ->
    r_db (run_from s0 h) = replay (r_db s0) (r_log (run_from s0 h)) /\
    forall k, exists h1 h2, h = h1 ++ h2 /\ replay (r_db s0) (firstn k (r_log (run_from s0 h))) = r_db (run_from s0 h1).
  Proof.
    intros E0. induction h as [|x h [I1 I2]] using rev_ind.
    - cbn. rewrite E0. split; [reflexivity|]. intros k. exists [], []. split; [reflexivity|]. now rewrite firstn_nil.
    - rewrite run_from_snoc. destruct (exec_one_write (fst x) (run_from s0 h) (snd x)) as [[D G]|(b & D & G)];
        rewrite D, G.
      + split; [assumption|]. intros k. destruct (I2 k) as (h1 & h2 & -> & E). exists h1, (h2 ++ [x]).
        split; [now rewrite app_assoc|assumption].
      + split.
        * unfold replay. rewrite fold_left_app. cbn. rewrite I1. reflexivity.
        * intros k. destruct (le_lt_dec k (length (r_log (run_from s0 h)))) as [Hk|Hk].
          -- destruct (I2 k) as (h1 & h2 & Eh & E). exists h1, (h2 ++ [x]).
             split; [rewrite Eh, <- app_assoc; reflexivity|]. rewrite firstn_app.
             replace (k - length (r_log (run_from s0 h)))%nat with 0%nat by lia. now rewrite firstn_O, app_nil_r.
          -- exists (h ++ [x]), []. split; [now rewrite app_nil_r|].
             rewrite firstn_all2 by (rewrite app_length; cbn; lia). rewrite run_from_snoc, D.
             unfold replay. rewrite fold_left_app. cbn. rewrite I1. reflexivity.
  Qed.

  (** The same for the calls after [ha], when at least what [ha] wrote reached
      the disk. *)
  Lemma replay_log_from s0 ha hb k : r_log s0 = [] -> (length (r_log (run_from s0 ha)) <= k)%nat ->
    exists h1 h2, hb = h1 ++ h2 /\
      replay (r_db s0) (firstn k (r_log (run_from s0 (ha ++ hb)))) = r_db (run_from s0 (ha ++ h1)).
  Proof.
    intros E0 Hk. induction hb as [|x hb IH] using rev_ind.
    - exists [], []. split; [reflexivity|]. rewrite app_nil_r, firstn_all2 by assumption.
      symmetry. apply (replay_log s0 ha E0).
    - destruct IH as (h1 & h2 & Eh & E). rewrite app_assoc, run_from_snoc.
      destruct (exec_one_write (fst x) (run_from s0 (ha ++ hb)) (snd x)) as [[D G]|(b & D & G)]; rewrite G.
      + exists h1, (h2 ++ [x]). split; [now rewrite Eh, app_assoc|assumption].
      + destruct (le_lt_dec k (length (r_log (run_from s0 (ha ++ hb))))) as [Hl|Hl].
        * exists h1, (h2 ++ [x]). split; [now rewrite Eh, app_assoc|]. rewrite firstn_app.
          replace (k - length (r_log (run_from s0 (ha ++ hb))))%nat with 0%nat by lia. now rewrite firstn_O, app_nil_r.
        * exists (hb ++ [x]), []. split; [now rewrite app_nil_r|].
          rewrite firstn_all2 by (rewrite app_length; cbn; lia). rewrite app_assoc, run_from_snoc, D.
          unfold replay. rewrite fold_left_app. cbn.
          change (fold_left (fun d b => apply_batch b d) (r_log (run_from s0 (ha ++ hb))) (r_db s0))
            with (replay (r_db s0) (r_log (run_from s0 (ha ++ hb)))).
          now rewrite <- (proj1 (replay_log s0 (ha ++ hb) E0)).
  Qed.

  (** ** The log does not influence anything *)

  Definition same (s t : rstate) : Prop := r_db s = r_db t /\ r_indexed s = r_indexed t.

  Lemma same_refl s : same s s. Proof. split; reflexivity. Qed.
  Lemma same_sym s t : same s t -> same t s. Proof. intros []. split; auto. Qed.
  Lemma same_trans s t u : same s t -> same t u -> same s u. Proof. intros [] []. split; congruence. Qed.

  Lemma query_same env d ix l l' q : forall out,
    query_exec (ops env) (RState d ix l) q out = query_exec (ops env) (RState d ix l') q out.
  Proof.
    induction q; intros out; try reflexivity; cbn [query_exec]; try (rewrite IHq; reflexivity).
  Qed.

  Lemma exec_same env s t o :
    same s t -> fst (exec (ops env) s o) = fst (exec (ops env) t o) /\
                same (snd (exec (ops env) s o)) (snd (exec (ops env) t o)).
  Proof.
    destruct s as [d ix l], t as [d' ix' l']. intros [E1 E2]. cbn in E1, E2. subst d' ix'.
    assert (forall b, fst (write_built env (RState d ix l) b) = fst (write_built env (RState d ix l') b) /\
              same (snd (write_built env (RState d ix l) b)) (snd (write_built env (RState d ix l') b))) as W.
    { intros [b|e|]; cbn; unfold write; destruct (wok env); split; try reflexivity; apply same_refl || (split; reflexivity). }
    assert (forall b b' : outcome batch, b = b' -> 
       fst (resw (fun _ : unit => RUnit) (write_built env (RState d ix l) b)) =
       fst (resw (fun _ : unit => RUnit) (write_built env (RState d ix l') b')) /\
       same (snd (resw (fun _ : unit => RUnit) (write_built env (RState d ix l) b)))
            (snd (resw (fun _ : unit => RUnit) (write_built env (RState d ix l') b')))) as U.
    { intros b b' <-. unfold resw. cbn [fst snd]. destruct (W b) as [-> S]. split; [reflexivity|assumption]. }
    assert (forall x : outcome unit, fst (resw (fun _ : unit => RUnit) (x, RState d ix l)) =
                                fst (resw (fun _ : unit => RUnit) (x, RState d ix l')) /\
              same (snd (resw (fun _ : unit => RUnit) (x, RState d ix l))) (snd (resw (fun _ : unit => RUnit) (x, RState d ix l')))) as V.
    { intros x. split; [reflexivity|]. split; reflexivity. }
    destruct o; cbn [exec].
    - cbn. unfold rdb_create_vertex, write. cbn [r_db]. destruct (vertex_exists H d (vid v)); [split; [reflexivity|split; reflexivity]|].
      destruct (wok env); split; try reflexivity; split; reflexivity.
    - unfold db_create_vertex_from_type. cbn. unfold rdb_create_vertex, write. cbn [r_db vid].
      destruct (vertex_exists H d id); [split; [reflexivity|split; reflexivity]|].
      destruct (wok env); split; try reflexivity; split; reflexivity.
    - cbn. unfold rdb_create_edge, write. cbn [r_db].
      destruct (negb (vertex_exists H d (eout e)) || negb (vertex_exists H d (ein e))); [split; [reflexivity|split; reflexivity]|].
      destruct (wok env); split; try reflexivity; split; reflexivity.
    - unfold db_get. rewrite (query_same env d ix l l'). split; [reflexivity|split; reflexivity].
    - unfold db_delete. rewrite (query_same env d ix l l').
      destruct (let? out := query_exec (ops env) (RState d ix l') q [] in pop out) as [[[x|x|x|x|x] rest]|e|];
        try apply V; apply U; reflexivity.
    - unfold db_set_properties. rewrite (query_same env d ix l l').
      destruct (let? out := query_exec (ops env) (RState d ix l') q [] in pop out) as [[[x|x|x|x|x] rest]|e|];
        try apply V; apply U; reflexivity.
    - apply U; reflexivity.
    - cbn [t_index_property rdb_ops]. unfold rdb_index_property. cbn [r_indexed r_db r_log].
      destruct (mem name ix); [apply V|].
      match goal with |- context [write_built env _ ?b] => generalize b end. intros [b|e|]; cbn; unfold write; cbn;
        destruct (wok env); cbn; split; try reflexivity; split; reflexivity.
    - apply V.
    - apply U; reflexivity.
    - apply U; reflexivity.
    - apply U; reflexivity.
    - apply U; reflexivity.
    - apply U; reflexivity.
    - apply U; reflexivity.
  Qed.

  Lemma run_from_same s t h : same s t -> same (run_from s h) (run_from t h).
  Proof.
    intros S. induction h as [|x h IH] using rev_ind; [exact S|]. rewrite !run_from_snoc. now apply exec_same.
  Qed.

  (** ** Reopening *)

  Lemma reopen h : good_history enc dec h -> steady h -> (N.of_nat (length h) < 2 ^ 64)%N ->
    exists s, rdb_open (r_db (run h)) = Ok s /\ same s (run h).
  Proof.
    intros G St Hl. destruct (run_rep H G) as (L & R & M & _). specialize (M St). unfold rdb_open.
    rewrite (rp_m R). unfold metaok in M. destruct (l_m L) as [l|]; cbn [option_map].
    - rewrite unbin_idents_ok.
      + cbn [obind]. eexists. split; [reflexivity|]. split; cbn; [reflexivity|]. now apply add_keys_perm.
      + unfold lenN. rewrite <- (Permutation_length M). pose proof (indexed_size h). lia.
    - eexists. split; [reflexivity|]. split; cbn; [reflexivity|]. now rewrite M.
  Qed.

  (** ** Histories with crashes *)

  Inductive event :=
  | Call (env : renv) (o : op)
  (** The process dies (or the machine does) and the database is reopened; [k]
      of the batches written since it was last opened had reached the disk, and
      at least those written before the last successful [sync]. *)
  | Crash (k : nat).

  (** A running database: what was on disk when it was opened, its state, and
      how many of the batches written since are known to be on disk. *)
  Record node := Node { n_disk : db; n_state : rstate; n_safe : nat }.
  Definition fresh_node : node := Node db_empty rdb_empty 0.

  (** rdb/datastore.rs 245-256: a [sync] that succeeds has compacted the column
      families, which writes everything out. *)
  Definition synced (env : renv) (o : op) : bool := match o with OSync => wok env | _ => false end.
  Definition event_step (n : node) (ev : event) : outcome node :=
    match ev with
    | Call env o =>
      let s := snd (exec (ops env) (n_state n) o) in
      Ok (Node (n_disk n) s (if synced env o then length (r_log s) else n_safe n))
    | Crash k =>
      let d := replay (n_disk n) (firstn (Nat.max k (n_safe n)) (r_log (n_state n))) in
      let? s := rdb_open d in Ok (Node d s 0)
    end.
  Fixpoint events (n : node) (l : list event) : outcome node :=
    match l with [] => Ok n | ev :: l => let? n := event_step n ev in events n l end.

  (** [survive l safe h]: [h] are the calls of [l] that crashes did not undo:
      each crash undoes some of the last calls, but none of the first [safe],
      those before the last successful [sync] or an earlier crash. *)
  Inductive survive : list event -> nat -> list (renv * op) -> Prop :=
  | su_nil : survive [] 0 []
  | su_sync l n h env : survive l n h -> fst (exec (ops env) (run h) OSync) = Ok RUnit ->
      survive (l ++ [Call env OSync]) (length (h ++ [(env, OSync)])) (h ++ [(env, OSync)])
  | su_call l n h env o : survive l n h -> (o = OSync -> fst (exec (ops env) (run h) OSync) <> Ok RUnit) ->
      survive (l ++ [Call env o]) n (h ++ [(env, o)])
  | su_crash l n h1 h2 k : survive l n (h1 ++ h2) -> (n <= length h1)%nat -> survive (l ++ [Crash k]) (length h1) h1.

  Definition calls_of (l : list event) : list (renv * op) :=
    flat_map (fun ev => match ev with Call env o => [(env, o)] | Crash _ => [] end) l.

  Lemma survive_incl l n h : survive l n h -> incl h (calls_of l) /\ length h <= length l.
  Proof.
    unfold calls_of. induction 1 as [|l n h env S [IH1 IH2]|l n h env o S [IH1 IH2]|l n h1 h2 k S [IH1 IH2]]; [split; [intros x []|auto]| | |].
    - rewrite flat_map_app, !app_length. cbn. split; [|lia]. apply incl_app; [apply incl_appl; assumption|apply incl_appr, incl_refl].
    - rewrite flat_map_app, !app_length. cbn. split; [|lia]. apply incl_app; [apply incl_appl; assumption|apply incl_appr, incl_refl].
    - rewrite flat_map_app, !app_length in *. cbn. rewrite app_nil_r. split; [|lia].
      intros x Hx. apply IH1. apply in_or_app. auto.
  Qed.

  Lemma events_app l : forall n l', events n (l ++ l') = let? n := events n l in events n l'.
  Proof.
    induction l as [|ev l IH]; intros n l'; cbn; [reflexivity|]. destruct (event_step n ev); cbn; auto.
  Qed.

  Lemma sync_result env s : fst (exec (ops env) s OSync) = if wok env then Ok RUnit else Err EDatastore.
  Proof. cbn. unfold rdb_sync. cbn. now destruct (wok env). Qed.

  Theorem crash_recovery l :
    good_history enc dec (calls_of l) -> steady (calls_of l) -> (N.of_nat (length l) < 2 ^ 64)%N ->
    exists n k h, events fresh_node l = Ok n /\ survive l k h /\ same (n_state n) (run h).
  Proof.
    intros G St Hl.
    assert (exists n h0 ha hb s0, events fresh_node l = Ok n /\ survive l (length (h0 ++ ha)) (h0 ++ ha ++ hb) /\
              n_disk n = r_db s0 /\ same s0 (run h0) /\ r_log s0 = [] /\ n_state n = run_from s0 (ha ++ hb) /\
              n_safe n = length (r_log (run_from s0 ha))) as
      (n & h0 & ha & hb & s0 & E & Su & _ & S0 & _ & Es & _).
    2:{ exists n, (length (h0 ++ ha)), (h0 ++ ha ++ hb). split; [assumption|]. split; [assumption|]. rewrite Es.
        eapply same_trans; [apply run_from_same; exact S0|]. unfold rdb_run, run_from. rewrite !fold_left_app. apply same_refl. }
    induction l as [|ev l IH] using rev_ind.
    - exists fresh_node, [], [], [], rdb_empty. conj; try reflexivity; [constructor|apply same_refl].
    - unfold calls_of in G, St. rewrite flat_map_app in G, St. apply Forall_app in G as [G Gx], St as [St Stx].
      rewrite app_length in Hl. cbn in Hl.
      destruct IH as (n & h0 & ha & hb & s0 & E & Su & Ed & S0 & L0 & Es & Ns); auto; [lia|].
      rewrite events_app, E. cbn [obind]. destruct ev as [env o|k]; cbn [events event_step obind].
      + assert (run_from s0 ((ha ++ hb) ++ [(env, o)]) = snd (exec (ops env) (n_state n) o)) as X by now rewrite run_from_snoc, Es.
        destruct (synced env o) eqn:Sy.
        * assert (o = OSync /\ wok env = true) as [-> W] by (destruct o; try discriminate; auto). clear Sy.
          eexists. exists h0, (ha ++ hb ++ [(env, OSync)]), [], s0. rewrite app_nil_r. conj; try reflexivity; auto.
          -- replace (h0 ++ ha ++ hb ++ [(env, OSync)]) with ((h0 ++ ha ++ hb) ++ [(env, OSync)]) by now rewrite <- !app_assoc.
             eapply su_sync; [exact Su|]. now rewrite sync_result, W.
          -- rewrite app_assoc, X. reflexivity.
          -- rewrite app_assoc, X. reflexivity.
        * eexists. exists h0, ha, (hb ++ [(env, o)]), s0. conj; try reflexivity; auto.
          -- replace (h0 ++ ha ++ hb ++ [(env, o)]) with ((h0 ++ ha ++ hb) ++ [(env, o)]) by now rewrite <- !app_assoc.
             apply su_call; [exact Su|]. intros ->. rewrite sync_result. cbn in Sy. rewrite Sy. discriminate.
          -- rewrite app_assoc, X. reflexivity.
      + rewrite Ed, Es, Ns. destruct (@replay_log_from s0 ha hb (Nat.max k (length (r_log (run_from s0 ha)))) L0) as (h1 & h2 & Eh & Er); [lia|].
        rewrite Er. clear Er.
        assert (same (run_from s0 (ha ++ h1)) (run (h0 ++ ha ++ h1))) as Sa.
        { eapply same_trans; [apply run_from_same; exact S0|]. unfold rdb_run, run_from. rewrite !fold_left_app. apply same_refl. }
        destruct (survive_incl Su) as [Inc Len].
        replace (h0 ++ ha ++ hb) with ((h0 ++ ha ++ h1) ++ h2) in Inc, Len, Su by now rewrite Eh, <- !app_assoc.
        rewrite app_length in Len.
        destruct (@reopen (h0 ++ ha ++ h1)) as (s1 & Eo & S1).
        * apply Forall_forall. intros x Hx. unfold good_history in G. rewrite Forall_forall in G. apply G, Inc, in_or_app. auto.
        * apply Forall_forall. intros x Hx. unfold steady in St. rewrite Forall_forall in St. apply St, Inc, in_or_app. auto.
        * lia.
        * destruct Sa as [D1 D2]. rewrite D1, Eo. cbn [obind].
          assert (r_log s1 = []) as Ls.
          { unfold rdb_open in Eo. destruct (get meta_key (d_meta (r_db (run (h0 ++ ha ++ h1))))) as [vb|].
            - destruct (unbin_idents vb); inversion Eo; reflexivity.
            - inversion Eo; reflexivity. }
          eexists. exists (h0 ++ ha ++ h1), [], [], s1. rewrite !app_nil_r. conj; try reflexivity; auto.
          -- eapply su_crash; [exact Su|]. rewrite !app_length. lia.
          -- cbn. symmetry. apply S1.
          -- cbn. now rewrite Ls.
  Qed.

  (** ** The same when [index_property] calls may fail

      A failed call leaves its name in the set in memory but not on disk. *)

  Definition names (L : lstate) : list ident := match l_m L with Some l => l | None => [] end.

  (** [h]: the calls since the database was opened. *)
  Definition meta_inv (s : rstate) (h : list (renv * op)) : Prop :=
    exists L, rep H enc dec (r_db s) L /\ NoDup (names L) /\
      (forall n, In n (names L) -> mem n (r_indexed s) = true) /\
      (forall n, mem n (r_indexed s) = true ->
         In n (names L) \/ exists env, In (env, OIndexProperty n) h /\ wok env = false).

  Lemma meta_inv_run s0 h : meta_inv s0 [] -> good_history enc dec h -> meta_inv (run_from s0 h) h.
  Proof.
    intros I0. induction h as [|x h IH] using rev_ind; intros G; [exact I0|].
    apply Forall_app in G as [G Gx]. apply Forall_inv in Gx. destruct (IH G) as (L & R & ND & Sub & Sup).
    rewrite run_from_snoc. destruct (exec (ops (fst x)) (run_from s0 h) (snd x)) as [r s'] eqn:E. cbn [snd].
    destruct (rdb_exec_any (fst x) (run_from s0 h) (snd x) R Gx E) as [(a & Sh & (L' & R' & _ & _ & MA) & _)|(W & -> & D & I)].
    - exists L'. destruct MA as [[EL EI]|M].
      + unfold names in *. rewrite EL, EI. conj; auto. intros n Hn. destruct (Sup n Hn) as [Hi|(env & Hi & Hw)]; [auto|].
        right. exists env. split; [apply in_or_app; auto|assumption].
      + unfold metaok in M. unfold names. destruct (l_m L') as [l|].
        * conj; auto.
          -- eapply Permutation_NoDup; [exact M|apply keys_NoDup].
          -- intros n Hn. apply keys_In. eapply Permutation_in; [apply Permutation_sym, M|assumption].
          -- intros n Hn. left. eapply Permutation_in; [exact M|]. now apply keys_In.
        * rewrite M. conj; [exact R'|apply NoDup_nil|intros n []|]. intros n Hn. discriminate.
    - exists L. rewrite D. conj; auto.
      + intros n Hn. destruct I as [->|(m & _ & _ & ->)]; [auto|]. rewrite mem_add. apply orb_true_iff. auto.
      + intros n Hn. assert (mem n (r_indexed (run_from s0 h)) = true \/ snd x = OIndexProperty n) as [Ho|Ex].
        { destruct I as [Ei|(m & Em & _ & Ei)]; rewrite Ei in Hn; [auto|]. rewrite mem_add in Hn.
          apply orb_true_iff in Hn as [Hn|Hn]; [|auto]. apply eqb_eq in Hn. subst. auto. }
        * destruct (Sup n Ho) as [Hi|(env & Hi & Hw)]; [auto|]. right. exists env. split; [apply in_or_app; auto|assumption].
        * right. exists (fst x). split; [|assumption]. apply in_or_app. right. left. destruct x. cbn in *. now subst.
  Qed.

  Lemma indexed_grows s0 h : length (keys (r_indexed (run_from s0 h))) <= length (keys (r_indexed s0)) + length h.
  Proof.
    induction h as [|x h IH] using rev_ind; [cbn; lia|]. rewrite run_from_snoc, exec_indexed, app_length. cbn [length].
    destruct (snd x); cbn [next_indexed]; try lia.
    transitivity (length (name :: keys (r_indexed (run_from s0 h)))); [|cbn [length]; lia].
    apply NoDup_incl_length; [apply keys_NoDup|]. intros n Hn. apply keys_In in Hn. rewrite mem_add in Hn.
    apply orb_true_iff in Hn as [Hn|Hn]; [left; apply eqb_eq in Hn; auto|right; now apply keys_In].
  Qed.

  Lemma reopen_any s h : meta_inv s h -> (N.of_nat (length (keys (r_indexed s))) < 2 ^ 64)%N ->
    exists s1, rdb_open (r_db s) = Ok s1 /\ r_db s1 = r_db s /\ r_log s1 = [] /\ meta_inv s1 [] /\
      length (keys (r_indexed s1)) <= length (keys (r_indexed s)) /\
      (forall n, mem n (r_indexed s1) = true -> mem n (r_indexed s) = true) /\
      (forall n, mem n (r_indexed s) = true -> mem n (r_indexed s1) = false ->
         exists env, In (env, OIndexProperty n) h /\ wok env = false).
  Proof.
    intros (L & R & ND & Sub & Sup) Hl.
    assert (rdb_open (r_db s) = Ok (RState (r_db s) (fold_left (fun m i => add i m) (names L) empty) [])) as Eo.
    { unfold rdb_open, names in *. rewrite (rp_m R). destruct (l_m L) as [l|]; cbn [option_map]; [|reflexivity].
      rewrite unbin_idents_ok; [reflexivity|]. unfold lenN.
      assert (length l <= length (keys (r_indexed s))); [|lia]. apply NoDup_incl_length; [assumption|].
      intros n Hn. now apply keys_In, Sub. }
    assert (forall n, mem n (fold_left (fun m i => add i m) (names L) empty) = true <-> In n (names L)) as Mem.
    { intros n. rewrite mem_fold_add. cbn. rewrite orb_false_r. apply inb_In. }
    eexists. split; [exact Eo|]. cbn [r_db r_log r_indexed]. conj; auto.
    - exists L. cbn [r_db r_indexed]. conj; auto.
      + intros n Hn. now apply Mem.
      + intros n Hn. left. now apply Mem.
    - apply NoDup_incl_length; [apply keys_NoDup|]. intros n Hn. apply keys_In in Hn. apply keys_In, Sub. now apply Mem.
    - intros n Hn. now apply Sub, Mem.
    - intros n Hn Hf. destruct (Sup n Hn) as [Hi|Hi]; [|exact Hi]. apply Mem in Hi. congruence.
  Qed.

  Definition as_calls (h : list (renv * op)) : list event := map (fun x => Call (fst x) (snd x)) h.

  Lemma events_calls h : forall n, exists n', events n (as_calls h) = Ok n' /\
    n_disk n' = n_disk n /\ n_state n' = run_from (n_state n) h.
  Proof.
    induction h as [|x h IH]; intros n; [now exists n|]. cbn [as_calls map events event_step obind].
    match goal with |- exists n', events ?m _ = _ /\ _ => destruct (IH m) as (n' & E & Ed & Es) end.
    exists n'. conj; auto.
  Qed.

  (** What a node went through since it was last opened. *)
  Definition session (l : list event) (n : node) : Prop :=
    exists l0 n0 ha hb, l = l0 ++ as_calls (ha ++ hb) /\ events fresh_node l0 = Ok n0 /\
      n_disk n0 = r_db (n_state n0) /\ r_log (n_state n0) = [] /\ meta_inv (n_state n0) [] /\
      length (keys (r_indexed (n_state n0))) <= length l0 /\
      n_disk n = n_disk n0 /\ n_state n = run_from (n_state n0) (ha ++ hb) /\
      n_safe n = length (r_log (run_from (n_state n0) ha)) /\
      (forall env, In (env, OSync) hb -> wok env = false).

  Lemma crash_step l n k : session l n -> good_history enc dec (calls_of l) -> (N.of_nat (length l) < 2 ^ 64)%N ->
    exists n2 l1 l2 n1, event_step n (Crash k) = Ok n2 /\ l = l1 ++ l2 /\ events fresh_node l1 = Ok n1 /\
      r_db (n_state n2) = r_db (n_state n1) /\
      (forall m, mem m (r_indexed (n_state n2)) = true -> mem m (r_indexed (n_state n1)) = true) /\
      (forall m, mem m (r_indexed (n_state n1)) = true -> mem m (r_indexed (n_state n2)) = false ->
         exists env, In (Call env (OIndexProperty m)) l1 /\ wok env = false) /\
      (forall ev, In ev l2 -> exists env o, ev = Call env o /\ (o = OSync -> wok env = false)) /\
      n_disk n2 = r_db (n_state n2) /\ r_log (n_state n2) = [] /\ meta_inv (n_state n2) [] /\
      length (keys (r_indexed (n_state n2))) <= length l /\ n_safe n2 = 0.
  Proof.
    intros (l0 & n0 & ha & hb & -> & E0 & D0 & L0 & I0 & Sz & Ed & Es & Ns & Nosync) G Hl.
    cbn [event_step]. rewrite Ed, Es, Ns, D0.
    destruct (@replay_log_from (n_state n0) ha hb (Nat.max k (length (r_log (run_from (n_state n0) ha)))) L0) as (h1 & h2 & Eh & Er); [lia|].
    rewrite Er. clear Er.
    assert (length (as_calls (ha ++ hb)) = length (ha ++ h1) + length h2) as Lc.
    { unfold as_calls. rewrite map_length, Eh, !app_length. lia. }
    assert (meta_inv (run_from (n_state n0) (ha ++ h1)) (ha ++ h1)) as I1.
    { apply meta_inv_run; [assumption|]. unfold calls_of in G. rewrite flat_map_app in G. apply Forall_app in G as [_ G].
      fold (calls_of (as_calls (ha ++ hb))) in G.
      assert (calls_of (as_calls (ha ++ hb)) = (ha ++ h1) ++ h2) as X.
      { rewrite Eh, app_assoc. generalize ((ha ++ h1) ++ h2). intros h. unfold calls_of, as_calls.
        induction h as [|[e o] h IH]; cbn; [reflexivity|]. now rewrite IH. }
      rewrite X in G. now apply Forall_app in G. }
    pose proof (indexed_grows (n_state n0) (ha ++ h1)) as Gr.
    rewrite app_length in Hl.
    destruct (reopen_any I1) as (s1 & Eo & Ed1 & Lg & I2 & Le & Sub & Sup); [lia|].
    rewrite Eo. cbn [obind].
    destruct (events_calls (ha ++ h1) n0) as (n1 & E1 & _ & Es1).
    exists (Node (r_db (run_from (n_state n0) (ha ++ h1))) s1 0), (l0 ++ as_calls (ha ++ h1)), (as_calls h2), n1.
    cbn [n_state n_disk n_safe]. rewrite Es1. conj; auto.
    - rewrite <- app_assoc. f_equal. unfold as_calls. now rewrite <- map_app, <- app_assoc, <- Eh.
    - rewrite events_app, E0. exact E1.
    - intros m H1 H2. destruct (Sup m H1 H2) as (env & Hi & Hw). exists env. split; [|assumption]. apply in_or_app. right.
      apply in_map_iff. exists (env, OIndexProperty m). auto.
    - intros ev Hev. apply in_map_iff in Hev as ([env o] & <- & Hi). exists env, o. split; [reflexivity|]. intros ->.
      apply Nosync. rewrite Eh. apply in_or_app. auto.
    - rewrite app_length. lia.
  Qed.

  Lemma session_events l : good_history enc dec (calls_of l) -> (N.of_nat (length l) < 2 ^ 64)%N ->
    exists n, events fresh_node l = Ok n /\ session l n.
  Proof.
    induction l as [|ev l IH] using rev_ind; intros G Hl.
    - exists fresh_node. split; [reflexivity|]. exists [], fresh_node, [], []. conj; try reflexivity; auto; [|intros env []].
      exists l_empty. cbn. conj; [apply rep_db_empty|apply NoDup_nil|intros n []|intros n Hn; discriminate].
    - unfold calls_of in G. rewrite flat_map_app in G. apply Forall_app in G as [G Gx]. rewrite app_length in Hl. cbn in Hl.
      destruct (IH G) as (n & E & Se); [lia|]. rewrite events_app, E. cbn [obind events].
      destruct ev as [env o|k].
      + cbn [event_step obind]. eexists. split; [reflexivity|].
        destruct Se as (l0 & n0 & ha & hb & -> & E0 & D0 & L0 & I0 & Sz & Ed & Es & Ns & Nosync).
        assert (run_from (n_state n0) ((ha ++ hb) ++ [(env, o)]) = snd (exec (ops env) (n_state n) o)) as X
          by now rewrite run_from_snoc, Es.
        destruct (synced env o) eqn:Sy.
        * exists l0, n0, (ha ++ hb ++ [(env, o)]), []. rewrite app_nil_r. cbn [n_disk n_state n_safe].
          rewrite app_assoc, X. conj; auto; [|intros e []].
          rewrite <- app_assoc. f_equal. unfold as_calls. now rewrite (map_app _ (ha ++ hb)).
        * exists l0, n0, ha, (hb ++ [(env, o)]). cbn [n_disk n_state n_safe]. rewrite app_assoc, X. conj; auto.
          -- rewrite <- app_assoc. f_equal. unfold as_calls. now rewrite (map_app _ (ha ++ hb)).
          -- intros e Hin. apply in_app_or in Hin as [Hin|[Hin|[]]]; [auto|]. inversion Hin; subst. exact Sy.
      + destruct (crash_step k Se G) as (n2 & l1 & l2 & n1 & Ec & _ & _ & _ & _ & _ & _ & Ed & Lg & I & Sz & Sf); [lia|].
        rewrite Ec. cbn [obind]. exists n2. split; [reflexivity|].
        exists (l ++ [Crash k]), n2, [], []. cbn [as_calls map app]. rewrite app_nil_r. conj; auto.
        * rewrite events_app, E. cbn [obind events]. now rewrite Ec.
        * rewrite app_length. lia.
        * cbn. now rewrite Sf, Lg.
        * intros env [].
  Qed.

  Theorem crash_any l k : good_history enc dec (calls_of l) -> (N.of_nat (length l) < 2 ^ 64)%N ->
    exists n2 l1 l2 n1, events fresh_node (l ++ [Crash k]) = Ok n2 /\ l = l1 ++ l2 /\ events fresh_node l1 = Ok n1 /\
      r_db (n_state n2) = r_db (n_state n1) /\
      (forall m, mem m (r_indexed (n_state n2)) = true -> mem m (r_indexed (n_state n1)) = true) /\
      (forall m, mem m (r_indexed (n_state n1)) = true -> mem m (r_indexed (n_state n2)) = false ->
         exists env, In (Call env (OIndexProperty m)) l1 /\ wok env = false) /\
      (forall ev, In ev l2 -> exists env o, ev = Call env o /\ (o = OSync -> wok env = false)).
  Proof.
    intros G Hl. destruct (session_events l G Hl) as (n & E & Se).
    destruct (crash_step k Se G Hl) as (n2 & l1 & l2 & n1 & Ec & El & E1 & Ed & Sub & Sup & Ns & _).
    exists n2, l1, l2, n1. conj; auto. rewrite events_app, E. cbn [obind events]. now rewrite Ec.
  Qed.
End Crash.
