(** * C59: starting servers. *)
From Coq Require Import String.
From Verif Require Import Base OMap Json Types Util Db Mem Rdb Spec QueryFacts MemFacts MemHist PropsMem PropsMemIndex Examples
  KeyFacts MsgPack Image MemSame Persist PropsPersist RdbCrash RdbGraph RdbRep RdbPut RdbRefine RdbHist PropsRdb PropsRdbIndex
  Proto ProtoFacts Server PropsProto Plugin PluginProg PropsServer Deploy PropsDeploy Conc Startup.

Set Implicit Arguments.
Local Open Scope list_scope.
Local Notation bytes := (list byte).

(** ** Command line *)

(** A number for [--max-open-files]: an optional sign and decimal digits. *)
Definition digit (b : byte) : Prop := (48 <= Byte.to_N b <= 57)%N.
Definition decimal (l : bytes) : Z := fold_left (fun z b => (10 * z + (Z.of_N (Byte.to_N b) - 48))%Z) l 0%Z.
Inductive number_text : bytes -> Z -> Prop :=
| nt_plain l : l <> [] -> Forall digit l -> number_text l (decimal l)
| nt_plus l : l <> [] -> Forall digit l -> number_text (Byte.x2b :: l) (decimal l)
| nt_minus l : l <> [] -> Forall digit l -> number_text (Byte.x2d :: l) (- decimal l).

Lemma digits_spec l : forall acc z, digits acc l = Some z <-> Forall digit l /\ z = fold_left (fun z b => (10 * z + (Z.of_N (Byte.to_N b) - 48))%Z) l acc.
Proof.
  induction l as [|b l IH]; intros acc z; cbn [digits fold_left].
  - split; [intros E; inversion E; auto|intros [_ ->]; reflexivity].
  - destruct ((48 <=? Z.of_N (Byte.to_N b))%Z && (Z.of_N (Byte.to_N b) <=? 57)%Z) eqn:D.
    + rewrite IH. apply andb_true_iff in D as [D1 D2]. apply Z.leb_le in D1, D2. split.
      * intros [F E]. split; [constructor; [unfold digit; lia|exact F]|exact E].
      * intros [F E]. inversion F; subst. auto.
    + split; [discriminate|]. intros [F _]. inversion F as [|? ? Db]; subst. unfold digit in Db. exfalso.
      apply andb_false_iff in D as [D|D]; apply Z.leb_gt in D; lia.
Qed.

(** The option is accepted exactly if it is such a text of a number that fits. *)
Theorem C59_max_open_files l z : parse_i32 l = Some z <-> number_text l z /\ (-2147483648 <= z <= 2147483647)%Z.
Proof.
  assert (forall z0 z1, in_i32 z0 = Some z1 <-> z0 = z1 /\ (-2147483648 <= z1 <= 2147483647)%Z) as I32.
  { intros z0 z1. unfold in_i32. destruct ((-2147483648 <=? z0)%Z && (z0 <=? 2147483647)%Z) eqn:R.
    - apply andb_true_iff in R as [A B]. apply Z.leb_le in A, B. split; [intros E; inversion E; subst; auto|intros [-> _]; reflexivity].
    - split; [discriminate|]. intros [-> [A B]]. apply Z.leb_le in A, B. rewrite A, B in R. discriminate. }
  assert (forall l0 z0 acc f, obnd (digits acc l0) (fun z => in_i32 (f z)) = Some z0 <->
     exists z1, Forall digit l0 /\ z1 = fold_left (fun z b => (10 * z + (Z.of_N (Byte.to_N b) - 48))%Z) l0 acc /\ f z1 = z0 /\ (-2147483648 <= z0 <= 2147483647)%Z) as Ob.
  { intros l0 z0 acc f. destruct (digits acc l0) as [z1|] eqn:E; cbn [obnd].
    - apply digits_spec in E as [F ->]. rewrite I32. split; [intros [A B]; eauto|]. intros (z1 & _ & -> & A & B). auto.
    - split; [discriminate|]. intros (z1 & F & Ez & _). pose proof (proj2 (digits_spec l0 acc z1) (conj F Ez)). congruence. }
  split.
  - unfold parse_i32. destruct l as [|b r]; [discriminate|].
    destruct (N.eqb_spec (Byte.to_N b) 43) as [E|N1]; [|destruct (N.eqb_spec (Byte.to_N b) 45) as [E|N2]].
    + destruct r as [|b2 r]; [discriminate|]. intros X. apply (Ob _ _ _ (fun z => z)) in X as (z1 & F & -> & <- & B).
      assert (b = Byte.x2b) as -> by (apply (f_equal Byte.of_N) in E; rewrite Byte.of_to_N in E; now inversion E).
      split; [|exact B]. apply nt_plus; [discriminate|exact F].
    + destruct r as [|b2 r]; [discriminate|]. intros X. apply (Ob _ _ _ Z.opp) in X as (z1 & F & -> & <- & B).
      assert (b = Byte.x2d) as -> by (apply (f_equal Byte.of_N) in E; rewrite Byte.of_to_N in E; now inversion E).
      split; [|exact B]. apply nt_minus; [discriminate|exact F].
    + intros X. apply (Ob _ _ _ (fun z => z)) in X as (z1 & F & -> & <- & B). split; [|exact B]. apply nt_plain; [discriminate|exact F].
  - intros [N B]. destruct N as [l Ne F|l Ne F|l Ne F].
    + unfold parse_i32. destruct l as [|b r]; [now elim Ne|]. assert (digit b) as Db by now inversion F. unfold digit in Db.
      destruct (N.eqb_spec (Byte.to_N b) 43); [lia|]. destruct (N.eqb_spec (Byte.to_N b) 45); [lia|].
      apply (Ob _ _ _ (fun z => z)). eauto.
    + unfold parse_i32. cbn [Byte.to_N N.eqb]. change ((43 =? 43)%N) with true. cbn iota. destruct l as [|b r]; [now elim Ne|].
      apply (Ob _ _ _ (fun z => z)). eauto.
    + unfold parse_i32. change ((Byte.to_N Byte.x2d =? 43)%N) with false. change ((Byte.to_N Byte.x2d =? 45)%N) with true. cbn iota. destruct l as [|b r]; [now elim Ne|].
      apply (Ob _ _ _ Z.opp). eauto.
Qed.

(** What the arguments mean.  [asked_for c a]: the command line values [c] ask for
    [a]. *)
Definition given (v : option bytes) (default s : bytes) : Prop := s = match v with Some x => x | None => default end /\ utf8_valid s = true.
Definition asks_ds (c : subcommand) (d : ds_args) : Prop :=
  match c, d with
  | NoSub, AMemory None => True
  | SubMemory p, AMemory p' => p = p'
  | SubRocksdb p max r, ARocksdb p' z r' => p = p' /\ r = r' /\ exists s, given max default_max s /\ number_text s z /\ (-2147483648 <= z <= 2147483647)%Z
  | _, _ => False
  end.
Theorem C59_arguments c a : parse_cli_args c = Args a <->
  given (m_addr c) default_addr (ca_addr a) /\ asks_ds (m_sub c) (ca_ds a) /\ ca_plugins a = m_plugins c /\ (forall p, m_plugins c = Some p -> utf8_valid p = true).
Proof.
  destruct a as [addr ds pl], c as [ma mp ms]. unfold parse_cli_args, given. cbn [m_addr m_sub m_plugins ca_addr ca_ds ca_plugins].
  assert (forall v dflt s, value_of v dflt = Some s <-> s = match v with Some x => x | None => dflt end /\ utf8_valid s = true) as Vo.
  { intros v dflt s. unfold value_of. set (x := match v with Some x => x | None => dflt end). destruct (utf8_valid x) eqn:U.
    - split; [intros E; inversion E; subst; auto|intros [-> _]; reflexivity].
    - split; [discriminate|]. intros [-> E]. congruence. }
  assert (forall ds', match mp with None => Args (CliArgs addr ds' None) | Some p => if utf8_valid p then Args (CliArgs addr ds' (Some p)) else ParsePanic end = Args (CliArgs addr ds pl) <->
     ds' = ds /\ pl = mp /\ forall p, mp = Some p -> utf8_valid p = true) as Fi.
  { intros ds'. destruct mp as [p|].
    - destruct (utf8_valid p) eqn:U.
      + split; [intros E; inversion E; subst; conj; auto; congruence|intros (-> & -> & _); reflexivity].
      + split; [discriminate|]. intros (_ & _ & E). rewrite (E p eq_refl) in U. discriminate.
    - split; [intros E; inversion E; subst; conj; auto; discriminate|intros (-> & -> & _); reflexivity]. }
  destruct (value_of ma default_addr) as [ad|] eqn:Va.
  2:{ split; [discriminate|]. intros ([A B] & _). pose proof (proj2 (Vo _ _ _) (conj A B)). congruence. }
  assert (ad = addr -> addr = match ma with Some x => x | None => default_addr end /\ utf8_valid addr = true) as Ad by (intros <-; now apply Vo).
  assert (addr = match ma with Some x => x | None => default_addr end /\ utf8_valid addr = true -> ad = addr) as Da.
  { intros X. apply Vo in X. congruence. }
  assert (forall ds', match mp with None => Args (CliArgs ad ds' None) | Some p => if utf8_valid p then Args (CliArgs ad ds' (Some p)) else ParsePanic end = Args (CliArgs addr ds pl) ->
     ad = addr) as Sa.
  { intros ds' E. destruct mp as [p|]; [destruct (utf8_valid p); [|discriminate]|]; now inversion E. }
  destruct ms as [|p|p max rep]; cbn [asks_ds].
  - split.
    + intros E. pose proof (Sa _ E) as Ea. subst ad. apply Fi in E as (<- & -> & Ep). conj; auto; try apply (Ad eq_refl).
    + intros (A & D & P & Q). rewrite (Da A). apply Fi. conj; auto. destruct ds as [[?|]|]; try contradiction; reflexivity.
  - split.
    + intros E. pose proof (Sa _ E) as Ea. subst ad. apply Fi in E as (<- & -> & Ep). conj; auto; try apply (Ad eq_refl).
    + intros (A & D & P & Q). rewrite (Da A). apply Fi. conj; auto. destruct ds; [now subst|contradiction].
  - split.
    + destruct (value_of max default_max) as [s|] eqn:Vm; [|discriminate]. destruct (parse_i32 s) as [z|] eqn:Pz; [|discriminate].
      intros E. pose proof (Sa _ E) as Ea. subst ad. apply Fi in E as (<- & -> & Ep). conj; auto; try apply (Ad eq_refl).
      apply C59_max_open_files in Pz as [N B]. exists s. apply Vo in Vm as [V1 V2]. split; [now split|]. split; [exact N|exact B].
    + intros (A & D & P & Q). destruct ds as [|p' z r']; [contradiction|]. destruct D as (<- & <- & s & G & N & B).
      apply Vo in G. rewrite G. rewrite (proj2 (C59_max_open_files s z) (conj N B)). rewrite (Da A). apply Fi. auto.
Qed.

(** ** Opening a RocksDB directory *)

Definition complete (r : rdir) : Prop := forall n, In n (rd_cfs r) <-> In n cf_names.
Definition unhindered : renv_open := ROpen true true (fun _ => true).

Lemma subset_spec a b : subset a b = true <-> forall n, In n a -> In n b.
Proof.
  unfold subset. rewrite forallb_forall. split; intros Q n Hn; specialize (Q n Hn); destruct (in_dec bytes_eq_dec n b); auto; discriminate.
Qed.
Lemma complete_spec r : subset cf_names (rd_cfs r) && subset (rd_cfs r) cf_names = true <-> complete r.
Proof.
  rewrite andb_true_iff, !subset_spec. unfold complete. split; [intros [A B] n; split; auto|intros A; split; intros n; apply A].
Qed.
Lemma create_states ok names : forall i r b l, create_cfs ok i r names = (b, l) ->
  (forall k x, nth_error l k = Some x -> x = RDir (rd_cfs r ++ firstn k names) (rd_db r) /\ (k <= length names)%nat) /\
  (b = true -> last l r = RDir (rd_cfs r ++ names) (rd_db r) /\ length l = S (length names)).
Proof.
  induction names as [|n ns IH]; intros i r b l; cbn [create_cfs].
  - intros E; inversion E; subst. split.
    + intros [|k] x Hk; cbn in Hk; [|destruct k; discriminate]. inversion Hk; subst. cbn [firstn]. rewrite app_nil_r. split; [now destruct x|apply Nat.le_0_l].
    + intros _. cbn [last length]. rewrite app_nil_r. split; [now destruct r|reflexivity].
  - destruct (ok i).
    + destruct (create_cfs ok (S i) (RDir (rd_cfs r ++ [n]) (rd_db r)) ns) as [b' l'] eqn:E'. intros E; inversion E; subst.
      destruct (IH _ _ _ _ E') as [A B]. split.
      * intros [|k] x Hk; cbn [nth_error] in Hk.
        -- inversion Hk; subst. cbn [firstn]. rewrite app_nil_r. split; [now destruct x|apply Nat.le_0_l].
        -- destruct (A k x Hk) as [-> Lk]. cbn [rd_cfs rd_db firstn length]. rewrite <- app_assoc. split; [reflexivity|lia].
      * intros ->. destruct (B eq_refl) as [Lb Ll]. cbn [length]. rewrite Ll. split; [|reflexivity].
        destruct l' as [|y l']; [discriminate|]. change (last (r :: y :: l') r) with (last (y :: l') r).
        assert (forall (x y : rdir) (l : list rdir) d1 d2, last (x :: l) d1 = last (x :: l) d2) as Ld.
        { clear. intros x y l. revert x. induction l as [|z l IH]; intros x d1 d2; [reflexivity|]. exact (IH z d1 d2). }
        rewrite (Ld y y l' r (RDir (rd_cfs r ++ [n]) (rd_db r))), Lb. cbn [rd_cfs rd_db]. now rewrite <- app_assoc.
    + intros E; inversion E; subst. split; [|discriminate].
      intros [|k] x Hk; cbn in Hk; [|destruct k; discriminate]. inversion Hk; subst. cbn [firstn]. rewrite app_nil_r. split; [now destruct x|apply Nat.le_0_l].
Qed.

(** A start that succeeds leaves a directory with all its families and the
    contents it had (none, if it was new); every later unhindered start succeeds
    on it and finds those contents. *)
Theorem C59_rdb_opened e d s ds : open_dir e d = (Ok s, ds) ->
  exists r, last ds None = Some r /\ complete r /\ rd_db r = match d with Some r0 => rd_db r0 | None => db_empty end /\
    rdb_open (rd_db r) = Ok s /\ open_dir unhindered (Some r) = (Ok s, [Some r]).
Proof.
  assert (forall r, complete r -> rdb_open (rd_db r) = Ok s -> open_dir unhindered (Some r) = (Ok s, [Some r])) as Again.
  { intros r C E. unfold open_dir. cbn [ro_first unhindered andb]. apply complete_spec in C. rewrite C. now rewrite E. }
  assert (forall r d0, (if ro_second e then
       match rd_cfs r with
       | [] => let (b, l) := create_cfs (ro_create e) 0 r cf_names in ((if b then rdb_open (rd_db r) else Err EDatastore), d0 :: map Some l)
       | _ => (Err EDatastore, [d0])
       end else (Err EDatastore, [d0])) = (Ok s, ds) ->
     exists r', last ds None = Some r' /\ complete r' /\ rd_db r' = rd_db r /\ rdb_open (rd_db r') = Ok s /\ open_dir unhindered (Some r') = (Ok s, [Some r'])) as Second.
  { intros r d0. destruct (ro_second e); [|discriminate]. destruct (rd_cfs r) eqn:Cf; [|discriminate].
    destruct (create_cfs (ro_create e) 0 r cf_names) as [b l] eqn:Ec. intros E. inversion E; subst. destruct b; [|discriminate].
    destruct (create_states _ _ _ _ Ec) as [_ B]. destruct (B eq_refl) as [La Le]. rewrite Cf in La. cbn [app] in La.
    exists (RDir cf_names (rd_db r)). cbn [rd_db].
    assert (complete (RDir cf_names (rd_db r))) as Co by (intros n; reflexivity).
    conj; auto.
    destruct l as [|x l]; [discriminate|]. change (last (d0 :: map Some (x :: l)) None) with (last (map Some (x :: l)) None).
    rewrite <- La. clear. revert x. induction l as [|y l IH]; intros x; [reflexivity|]. exact (IH y). }
  unfold open_dir. destruct d as [r|].
  - destruct (ro_first e && subset cf_names (rd_cfs r) && subset (rd_cfs r) cf_names) eqn:C.
    + intros E. inversion E; subst. exists r. rewrite <- andb_assoc in C. apply andb_true_iff in C as [_ C]. apply complete_spec in C. cbn [last]. conj; auto. pose proof (Again r C H0) as A. unfold open_dir in A. rewrite H0 in A. rewrite H0. exact A.
    + apply Second.
  - apply Second.
Qed.

(** A start that fails on a directory that was complete leaves it untouched. *)
Theorem C59_rdb_not_damaged e r x ds : complete r -> open_dir e (Some r) = (x, ds) -> ds = [Some r] /\ (x = Err EDatastore \/ x = rdb_open (rd_db r)).
Proof.
  intros C. unfold open_dir. destruct (ro_first e && subset cf_names (rd_cfs r) && subset (rd_cfs r) cf_names).
  - intros E; inversion E; auto.
  - assert (exists n l, rd_cfs r = n :: l) as (n & l & Cf).
    { destruct (rd_cfs r) as [|n l] eqn:Cf; [|eauto]. exfalso. pose proof (proj2 (C (hd [] cf_names)) (or_introl eq_refl)) as X. rewrite Cf in X. exact X. }
    rewrite Cf. destruct (ro_second e); intros E; inversion E; auto.
Qed.

(** What the first start on a new path leaves if it is killed (or fails) at some
    point: nothing, a directory without families, one with some of them, or a
    complete one. *)
Theorem C59_rdb_first_start e k x : nth_error (snd (open_dir e None)) k = Some x ->
  x = None \/ exists n, (n <= 8)%nat /\ x = Some (RDir (firstn n cf_names) db_empty).
Proof.
  unfold open_dir. cbn [rd_cfs]. destruct (ro_second e).
  - destruct (create_cfs (ro_create e) 0 (RDir [] db_empty) cf_names) as [b l] eqn:Ec. destruct (create_states _ _ _ _ Ec) as [A _]. cbn [snd].
    destruct k as [|k]; cbn [nth_error]; [intros E; inversion E; auto|].
    rewrite nth_error_map. destruct (nth_error l k) as [y|] eqn:Hy; cbn; [|discriminate]. intros E; inversion E; subst.
    destruct (A _ _ Hy) as [-> Lk]. right. exists k. split; [exact Lk|reflexivity].
  - cbn [snd]. destruct k as [|[|k]]; cbn; try discriminate. intros E; inversion E; auto.
Qed.
(** If it left some families but not all, no later start ever succeeds, whatever
    happens, and the directory stays as it is. *)
Theorem C59_rdb_half_created_refuted n : (0 < n < 8)%nat ->
  (exists e k, nth_error (snd (open_dir e None)) k = Some (Some (RDir (firstn n cf_names) db_empty))) /\
  forall e, open_dir e (Some (RDir (firstn n cf_names) db_empty)) = (Err EDatastore, [Some (RDir (firstn n cf_names) db_empty)]).
Proof.
  intros L. split.
  - exists unhindered, (S n). do 8 (destruct n as [|n]; [first [lia|reflexivity]|]). lia.
  - intros [o1 o2 oc]. unfold open_dir. cbn [ro_first ro_second rd_cfs].
    assert (subset cf_names (firstn n cf_names) = false) as Sf.
    { do 8 (destruct n as [|n]; [first [lia|vm_compute; reflexivity]|]). lia. }
    rewrite Sf, andb_false_r. cbn [andb]. destruct n as [|n]; [lia|]. cbn [firstn cf_names map]. destruct o2; reflexivity.
Qed.
(** Otherwise the next unhindered start succeeds. *)
Theorem C59_rdb_second_start e k x : nth_error (snd (open_dir e None)) k = Some x ->
  (forall n, (0 < n < 8)%nat -> x <> Some (RDir (firstn n cf_names) db_empty)) ->
  exists ds, open_dir unhindered x = (Ok rdb_empty, ds).
Proof.
  intros Hk N. apply C59_rdb_first_start in Hk as [->|(n & L & ->)].
  - eexists. reflexivity.
  - destruct (Nat.eq_dec n 0) as [->|]; [eexists; reflexivity|]. destruct (Nat.eq_dec n 8) as [->|]; [eexists; vm_compute; reflexivity|].
    exfalso. apply (N n); [lia|reflexivity].
Qed.

(** ** One start *)
Section Machine.
  Variable alnum : N -> bool.
  Variable enc : json -> bytes.
  Variable dec : bytes -> option json.
  Variable dbg : bool.
  Variable H : bytes -> N.
  Variable lim : nat.
  Variable ours : version.
  Notation launch := (launch lim ours).
  Notation m_step := (m_step alnum enc dec dbg H lim ours).
  Notation m_trace := (m_trace alnum enc dec dbg H lim ours).
  Notation ask := (ask alnum enc dec dbg H).

  (** The plugins a server with the option [plugins] has. *)
  Definition has_plugins (e : launch_env) (plugins : option bytes) (codes : list (bytes * code)) : Prop :=
    match plugins with
    | None => codes = []
    | Some pattern => exists libs, le_glob e pattern = Some libs /\ load_plugins ours [] libs = Loaded codes
    end.

  (** What is served: [serves m e sub st fs]: with the machine as in [m], a server
      started with [sub] serves [st] and the files become [fs]. *)
  Definition serves (m : machine) (e : launch_env) (sub : subcommand) (st : store) (fs : files) : Prop :=
    match sub with
    | NoSub | SubMemory None => st = Mem (Some mem_empty) None /\ fs = mc_files m
    | SubMemory (Some p) =>
      exists st0, st = Mem st0 (Some p) /\ fs = mc_files m /\
        if le_visible e p then
          match f_image (mc_files m) p with
          | Some b => le_readable e p = true /\ exists x, read_image lim b = Some x /\ st0 = Some x
          | None => f_dir (mc_files m) p = None /\ st0 = Some mem_empty
          end
        else st0 = Some mem_empty
    | SubRocksdb p _ repair =>
      repair = false /\ uses_dirb m p = false /\ f_image (mc_files m) p = None /\
      exists s ds, open_dir (le_rocks e) (f_dir (mc_files m) p) = (Ok s, ds) /\ st = Rocks s p /\
        fs = Files (f_image (mc_files m)) (set (f_dir (mc_files m)) p (last ds None))
    end.

  Lemma run_server_cases m e addr st pl l m' : run_server ours m e addr st pl = (l, m') ->
    (l = Ended /\ m' = m /\ ~ (exists codes, has_plugins e pl codes)) \/
    (l = Serving (mc_next m) /\ exists codes, has_plugins e pl codes /\
      m' = Machine (mc_files m) (upd (mc_up m) (mc_next m) (Some (Srv addr st codes))) (S (mc_next m))).
  Proof.
    unfold run_server, has_plugins. destruct pl as [pat|].
    - destruct (le_glob e pat) as [libs|].
      + destruct (load_plugins ours [] libs) as [ps|er] eqn:L; intros E; inversion E; subst.
        * right. split; [reflexivity|]. exists ps. split; [eauto|reflexivity].
        * left. conj; auto. intros (codes & libs' & E1 & E2). inversion E1; subst. congruence.
      + intros E; inversion E; subst. left. conj; auto. intros (codes & libs' & E1 & _). discriminate.
    - intros E; inversion E; subst. right. split; [reflexivity|]. exists []. auto.
  Qed.

  (** When a start ends in a running server, and which. *)
  Theorem C59_started m e c i m' : launch m e c = (Serving i, m') <->
    exists a addr rest st codes fs,
      parse_cli_args c = Args a /\ le_resolve e (ca_addr a) = Some (addr :: rest) /\
      le_free e addr = true /\ listeningb m addr = false /\
      serves m e (m_sub c) st fs /\ has_plugins e (m_plugins c) codes /\
      i = mc_next m /\ m' = Machine fs (upd (mc_up m) i (Some (Srv addr st codes))) (S i).
  Proof.
    unfold launch. destruct (parse_cli_args c) as [a| |] eqn:P.
    2,3: split; [discriminate|intros (? & ? & ? & ? & ? & ? & E & _); discriminate].
    pose proof (proj1 (C59_arguments c a) P) as (_ & D & Pl & _).
    destruct (le_resolve e (ca_addr a)) as [[|addr rest]|] eqn:Re.
    1,3: split; [discriminate|intros (? & ? & ? & ? & ? & ? & E & E2 & _); inversion E; subst; congruence].
    assert (forall m1 st fs, mc_files m1 = fs -> mc_up m1 = mc_up m -> mc_next m1 = mc_next m ->
       (run_server ours m1 e addr st (ca_plugins a) = (Serving i, m') <->
        exists codes, has_plugins e (m_plugins c) codes /\ i = mc_next m /\ m' = Machine fs (upd (mc_up m) i (Some (Srv addr st codes))) (S i))) as Run.
    { intros m1 st fs F1 F2 F3. rewrite Pl. split.
      - intros E. apply run_server_cases in E as [(E & _)|(E & codes & Hc & ->)]; [discriminate|]. inversion E; subst. exists codes. rewrite F2, F3. auto.
      - intros (codes & Hc & -> & ->). unfold run_server. unfold has_plugins in Hc. rewrite F1, F2, F3. destruct (m_plugins c) as [pat|]; [|now subst].
        destruct Hc as (libs & -> & ->). reflexivity. }
    destruct (le_free e addr && negb (listeningb m addr)) eqn:Fr.
    2:{ split; [discriminate|]. intros (a1 & ad1 & r1 & st & codes & fs & E1 & E2 & E3 & E4 & _). inversion E1; subst. rewrite Re in E2. inversion E2; subst.
        rewrite E3, E4 in Fr. discriminate. }
    apply andb_true_iff in Fr as [Fr Ls]. apply negb_true_iff in Ls.
    assert ((exists st fs, serves m e (m_sub c) st fs /\ exists codes, has_plugins e (m_plugins c) codes /\ i = mc_next m /\ m' = Machine fs (upd (mc_up m) i (Some (Srv addr st codes))) (S i)) <->
       exists a0 addr0 rest0 st codes fs, Args a = Args a0 /\ le_resolve e (ca_addr a0) = Some (addr0 :: rest0) /\ le_free e addr0 = true /\ listeningb m addr0 = false /\
       serves m e (m_sub c) st fs /\ has_plugins e (m_plugins c) codes /\ i = mc_next m /\ m' = Machine fs (upd (mc_up m) i (Some (Srv addr0 st codes))) (S i)) as <-.
    { split.
      - intros (st & fs & S1 & codes & S2 & S3 & S4). exists a, addr, rest, st, codes, fs. conj; auto.
      - intros (a1 & ad1 & r1 & st & codes & fs & E1 & E2 & E3 & E4 & E5 & E6 & E7 & E8). inversion E1; subst a1. rewrite Re in E2. inversion E2; subst ad1 r1.
        exists st, fs. split; [exact E5|]. exists codes. auto. }
    unfold start_ds, serves. destruct (m_sub c) as [|p|p max rep]; cbn [asks_ds] in D.
    - destruct (ca_ds a) as [[?|]|]; try contradiction. rewrite (Run m _ (mc_files m)) by reflexivity.
      split; [intros X; exists (Mem (Some mem_empty) None), (mc_files m); auto|]. intros (st & fs & [-> ->] & X). exact X.
    - destruct (ca_ds a) as [q|]; [|contradiction]. subst q. destruct p as [p|].
      + destruct (le_visible e p).
        * destruct (f_image (mc_files m) p) as [b|].
          -- destruct (le_readable e p).
             ++ destruct (read_image lim b) as [x|].
                ** rewrite (Run m _ (mc_files m)) by reflexivity. split.
                   --- intros X. exists (Mem (Some x) (Some p)), (mc_files m). split; [|exact X]. exists (Some x). conj; auto. eauto.
                   --- intros (st & fs & (st0 & -> & -> & _ & y & E & ->) & X). inversion E; subst. exact X.
                ** split; [discriminate|]. intros (st & fs & (st0 & _ & _ & _ & y & E & _) & _). discriminate.
             ++ split; [discriminate|]. intros (st & fs & (st0 & _ & _ & E & _) & _). discriminate.
          -- destruct (f_dir (mc_files m) p).
             ++ split; [discriminate|]. intros (st & fs & (st0 & _ & _ & E & _) & _). discriminate.
             ++ rewrite (Run m _ (mc_files m)) by reflexivity. split.
                ** intros X. exists (Mem (Some mem_empty) (Some p)), (mc_files m). split; [|exact X]. exists (Some mem_empty). auto.
                ** intros (st & fs & (st0 & -> & -> & _ & ->) & X). exact X.
        * rewrite (Run m _ (mc_files m)) by reflexivity. split.
          -- intros X. exists (Mem (Some mem_empty) (Some p)), (mc_files m). split; [|exact X]. exists (Some mem_empty). auto.
          -- intros (st & fs & (st0 & -> & -> & ->) & X). exact X.
      + rewrite (Run m _ (mc_files m)) by reflexivity.
        split; [intros X; exists (Mem (Some mem_empty) None), (mc_files m); auto|]. intros (st & fs & [-> ->] & X). exact X.
    - destruct (ca_ds a) as [|p' z r']; [contradiction|]. destruct D as (<- & <- & _). destruct rep.
      + split; [|intros (st & fs & (E & _) & _); discriminate]. destruct (uses_dirb m p); [discriminate|]. destruct (f_dir (mc_files m) p); [|discriminate].
        destruct (le_repair e r); discriminate.
      + destruct (uses_dirb m p); [split; [discriminate|intros (st & fs & (_ & E & _) & _); discriminate]|].
        destruct (f_image (mc_files m) p); [split; [discriminate|intros (st & fs & (_ & _ & E & _) & _); discriminate]|].
        destruct (open_dir (le_rocks e) (f_dir (mc_files m) p)) as [[s|er|] ds].
        * rewrite (Run _ _ (Files (f_image (mc_files m)) (set (f_dir (mc_files m)) p (last ds None)))) by reflexivity. split.
          -- intros X. eexists _, _. split; [|exact X]. conj; auto. exists s, ds. conj; auto.
          -- intros (st & fs & (_ & _ & _ & s1 & ds1 & E & -> & ->) & X). inversion E; subst. exact X.
        * split; [discriminate|]. intros (st & fs & (_ & _ & _ & s1 & ds1 & E & _) & _). discriminate.
        * split; [discriminate|]. intros (st & fs & (_ & _ & _ & s1 & ds1 & E & _) & _). discriminate.
  Qed.

  (** A start that does not end in a running server changes no running server and
      no file; and nothing at all, unless it is one with [rocksdb], which may
      change that directory. *)
  Theorem C59_not_started m e c l m' : launch m e c = (l, m') -> (forall i, l <> Serving i) ->
    mc_up m' = mc_up m /\ mc_next m' = mc_next m /\ f_image (mc_files m') = f_image (mc_files m) /\
    (forall p, (forall max r, m_sub c <> SubRocksdb p max r) -> f_dir (mc_files m') p = f_dir (mc_files m) p) /\
    ((forall p max r, m_sub c <> SubRocksdb p max r) -> m' = m).
  Proof.
    assert (forall m1, m1 = m -> mc_up m1 = mc_up m /\ mc_next m1 = mc_next m /\ f_image (mc_files m1) = f_image (mc_files m) /\
      (forall p, (forall max r, m_sub c <> SubRocksdb p max r) -> f_dir (mc_files m1) p = f_dir (mc_files m) p) /\
      ((forall p max r, m_sub c <> SubRocksdb p max r) -> m1 = m)) as Same by (intros m1 ->; conj; auto).
    unfold launch. destruct (parse_cli_args c) as [a| |] eqn:P; try (intros E; inversion E; subst; auto; fail).
    pose proof (proj1 (C59_arguments c a) P) as (_ & D & _).
    destruct (le_resolve e (ca_addr a)) as [[|addr rest]|]; try (intros E; inversion E; subst; auto; fail).
    destruct (le_free e addr && negb (listeningb m addr)); [|intros E; inversion E; subst; auto].
    assert (forall m1 st pl, run_server ours m1 e addr st pl = (l, m') -> (forall i, l <> Serving i) -> m' = m1) as Run.
    { intros m1 st pl E N. apply run_server_cases in E as [(_ & E & _)|(E & _)]; [exact E|]. now apply N in E. }
    unfold start_ds. destruct (m_sub c) as [|p|p max rep] eqn:Sc; cbn [asks_ds] in D.
    - destruct (ca_ds a) as [[?|]|]; try contradiction. intros E N. apply Same. eapply Run; eauto.
    - destruct (ca_ds a) as [q|]; [|contradiction]. subst q. intros E N. apply Same.
      repeat match type of E with
             | (if ?x then _ else _) = _ => destruct x
             | match ?x with _ => _ end = _ => destruct x
             end; try (eapply Run; eauto; fail); now inversion E.
    - destruct (ca_ds a) as [|p' z r']; [contradiction|]. destruct D as (<- & <- & _).
      assert (forall m1 d1, m1 = Machine (Files (f_image (mc_files m)) (set (f_dir (mc_files m)) p d1)) (mc_up m) (mc_next m) ->
        mc_up m1 = mc_up m /\ mc_next m1 = mc_next m /\ f_image (mc_files m1) = f_image (mc_files m) /\
        (forall p0, (forall max0 r, SubRocksdb p max rep <> SubRocksdb p0 max0 r) -> f_dir (mc_files m1) p0 = f_dir (mc_files m) p0) /\
        ((forall p0 max0 r, SubRocksdb p max rep <> SubRocksdb p0 max0 r) -> m1 = m)) as Dir.
      { intros m1 d1 ->. cbn. conj; auto.
        - intros p0 N. unfold set. destruct (bytes_eq_dec p0 p) as [->|]; [|reflexivity]. now elim (N max rep).
        - intros N. now elim (N p max rep). }
      destruct rep; destruct (uses_dirb m p); try (intros E; inversion E; subst; auto; fail).
      + destruct (f_dir (mc_files m) p) as [r|] eqn:Fd; [|intros E; inversion E; subst; auto].
        destruct (le_repair e r); intros E; inversion E; subst; auto. intros _. now apply Dir with (d1 := Some r0).
      + destruct (f_image (mc_files m) p); [intros E; inversion E; subst; auto|].
        destruct (open_dir (le_rocks e) (f_dir (mc_files m) p)) as [[s|er|] ds]; intros E N.
        * apply Dir with (d1 := last ds None). eapply Run; eauto.
        * inversion E; subst. now apply Dir with (d1 := last ds None).
        * inversion E; subst. now apply Dir with (d1 := last ds None).
  Qed.

  (** If the address is taken, nothing is read, created or repaired. *)
  Theorem C59_address_first m e c a addr rest : parse_cli_args c = Args a -> le_resolve e (ca_addr a) = Some (addr :: rest) ->
    le_free e addr = false \/ listeningb m addr = true -> launch m e c = (Ended, m).
  Proof.
    intros P R F. unfold launch. rewrite P, R. destruct F as [-> | ->]; [reflexivity|]. now rewrite andb_false_r.
  Qed.

  (** [--repair] never serves. *)
  Theorem C59_repair m e c p max l m' : m_sub c = SubRocksdb p max true -> launch m e c = (l, m') ->
    (l = Repaired \/ l = Ended) /\ mc_up m' = mc_up m /\ f_image (mc_files m') = f_image (mc_files m) /\
    (forall q, q <> p -> f_dir (mc_files m') q = f_dir (mc_files m) q).
  Proof.
    intros Sc E. assert (forall i, l <> Serving i) as N.
    { intros i ->. apply C59_started in E as (a & addr & rest & st & codes & fs & _ & _ & _ & _ & S1 & _). rewrite Sc in S1. destruct S1 as [S1 _]. discriminate. }
    destruct (@C59_not_started m e c l m' E N) as (A & _ & B & C & _). conj; auto.
    - destruct l; auto. now elim (N i).
    - intros q Nq. apply C. intros max0 r E2. rewrite Sc in E2. inversion E2; subst. now elim Nq.
  Qed.

  (** ** Histories *)

  Lemma m_trace_app l1 l2 : forall m, m_trace m (l1 ++ l2) = let (r1, m1) := m_trace m l1 in let (r2, m2) := m_trace m1 l2 in (r1 ++ r2, m2).
  Proof.
    induction l1 as [|x l1 IH]; intros m; cbn [app Startup.m_trace]; [now destruct (m_trace m l2)|].
    destruct (m_step m x) as [r m1]. rewrite IH. destruct (m_trace m1 l1) as [rs m2]. destruct (m_trace m2 l2) as [rs2 m3]. reflexivity.
  Qed.
  Lemma m_trace_ind (P : machine -> Prop) f : P (booted f) -> (forall m x, P m -> P (snd (m_step m x))) -> forall evs, P (snd (m_trace (booted f) evs)).
  Proof.
    intros P0 Ps evs. revert P0. generalize (booted f). induction evs as [|x evs IH]; intros m Pm; cbn [Startup.m_trace]; [exact Pm|].
    specialize (Ps m x Pm). destruct (m_step m x) as [r m1]. cbn [snd] in Ps. specialize (IH m1 Ps). now destruct (m_trace m1 evs).
  Qed.

  (** What one step does to the running servers: one is added by a start, keeps its
      address and the place of its data while asked, or is gone. *)
  Definition place (st : store) : option bytes * option bytes := match st with Mem _ p => (p, None) | Rocks _ p => (None, Some p) end.
  Lemma ask_up m i q r m' : ask m i q = (r, m') -> mc_next m' = mc_next m /\
    forall j, match mc_up m j, mc_up m' j with
              | Some s, Some s' => sv_addr s' = sv_addr s /\ place (sv_store s') = place (sv_store s) /\ sv_codes s' = sv_codes s /\ (j <> i -> s' = s)
              | None, None => True
              | _, _ => False
              end.
  Proof.
    assert (forall m' : machine, m' = m -> mc_next m' = mc_next m /\
       forall j, match mc_up m j, mc_up m' j with
              | Some s, Some s' => sv_addr s' = sv_addr s /\ place (sv_store s') = place (sv_store s) /\ sv_codes s' = sv_codes s /\ (j <> i -> s' = s)
              | None, None => True
              | _, _ => False
              end) as Same.
    { intros m1 ->. split; [reflexivity|]. intros j. destruct (mc_up m j); auto. }
    assert (forall fs s s', mc_up m i = Some s -> sv_addr s' = sv_addr s -> place (sv_store s') = place (sv_store s) -> sv_codes s' = sv_codes s ->
       mc_next (Machine fs (upd (mc_up m) i (Some s')) (mc_next m)) = mc_next m /\
       forall j, match mc_up m j, upd (mc_up m) i (Some s') j with
              | Some s, Some s' => sv_addr s' = sv_addr s /\ place (sv_store s') = place (sv_store s) /\ sv_codes s' = sv_codes s /\ (j <> i -> s' = s)
              | None, None => True
              | _, _ => False
              end) as Upd.
    { intros fs s s' U A B C. split; [reflexivity|]. intros j. unfold upd. destruct (Nat.eqb_spec j i) as [->|N].
      - rewrite U. conj; auto. congruence.
      - destruct (mc_up m j); auto. }
    unfold Startup.ask. destruct (mc_up m i) as [s|] eqn:U; [|intros E; inversion E; subst; now apply Same].
    destruct (sv_store s) as [st [p|]|st p] eqn:Ss; destruct q as [a f|a]; try (intros E; inversion E; subst; now apply Same).
    - destruct (handle _ _ _ _ _ _ _ _) as [r1 x]. intros E. inversion E; subst. apply (Upd _ _ _ eq_refl); cbn; auto. now rewrite Ss.
    - destruct (handle _ _ _ _ _ _ _ _) as [r1 x]. intros E. inversion E; subst. apply (Upd _ _ _ eq_refl); cbn; auto. now rewrite Ss.
    - destruct (handle _ _ _ _ _ _ _ _) as [r1 x]. intros E. inversion E; subst. apply (Upd _ _ _ eq_refl); cbn; auto. now rewrite Ss.
  Qed.
  Lemma kill_up m i f k : mc_up (kill m i f k) = upd (mc_up m) i None /\ mc_next (kill m i f k) = mc_next m.
  Proof. unfold kill. destruct (mc_up m i) as [s|]; [destruct (sv_store s) as [[mm|] [p|]|]|]; split; reflexivity. Qed.

  (** Process numbers are never used again. *)
  Definition numbered (m : machine) : Prop := forall i s, mc_up m i = Some s -> (i < mc_next m)%nat.
  Lemma numbered_step m x : numbered m -> numbered (snd (m_step m x)).
  Proof.
    intros N. assert (forall m1 i, mc_up m1 = upd (mc_up m) i None -> mc_next m1 = mc_next m -> numbered m1) as Gone.
    { intros m1 i U X j s. rewrite U, X. unfold upd. destruct (Nat.eqb_spec j i); [discriminate|]. apply N. }
    destruct x as [e c|i q|i|i f k]; cbn [Startup.m_step].
    - destruct (launch m e c) as [l m'] eqn:E. cbn [snd]. destruct l as [i| |].
      + apply C59_started in E as (a & addr & rest & st & codes & fs & _ & _ & _ & _ & _ & _ & -> & ->). intros j s. cbn. unfold upd.
        destruct (Nat.eqb_spec j (mc_next m)) as [->|]; [intros _; lia|]. intros U. specialize (N _ _ U). lia.
      + destruct (@C59_not_started m e c _ m' E ltac:(discriminate)) as (U & X & _). intros j s. rewrite U, X. apply N.
      + destruct (@C59_not_started m e c _ m' E ltac:(discriminate)) as (U & X & _). intros j s. rewrite U, X. apply N.
    - destruct (ask m i q) as [r m'] eqn:E. cbn [snd]. apply ask_up in E as [X U]. intros j s Uj. rewrite X. specialize (U j). rewrite Uj in U.
      destruct (mc_up m j) eqn:Um; [|contradiction]. now apply (N j s0).
    - now apply (Gone _ i).
    - destruct (kill_up m i f k). now apply (Gone _ i).
  Qed.
  Lemma listeningb_spec m a : numbered m -> (listeningb m a = true <-> listening m a).
  Proof.
    intros N. unfold listeningb, listening. rewrite existsb_exists. split.
    - intros (i & _ & E). destruct (mc_up m i) as [s|] eqn:U; [|discriminate]. destruct (bytes_eq_dec (sv_addr s) a); [|discriminate]. eauto.
    - intros (i & s & U & E). exists i. split; [apply in_seq; specialize (N _ _ U); lia|]. rewrite U. now destruct (bytes_eq_dec (sv_addr s) a).
  Qed.
  Lemma uses_dirb_spec m p : numbered m -> (uses_dirb m p = true <-> uses_dir m p).
  Proof.
    intros N. unfold uses_dirb, uses_dir. rewrite existsb_exists. split.
    - intros (i & _ & E). destruct (mc_up m i) as [s|] eqn:U; [|discriminate]. destruct (sv_store s) as [|st q] eqn:Ss; [discriminate|].
      destruct (bytes_eq_dec q p); [|discriminate]. subst. eauto.
    - intros (i & s & st & U & E). exists i. split; [apply in_seq; specialize (N _ _ U); lia|]. rewrite U, E. now destruct (bytes_eq_dec p p).
  Qed.

  (** In every history: no two running servers listen on the same address, and no
      two use the same RocksDB directory. *)
  Definition apart (m : machine) : Prop := numbered m /\
    forall i j s t, mc_up m i = Some s -> mc_up m j = Some t -> i <> j ->
      sv_addr s <> sv_addr t /\ (forall x y p q, sv_store s = Rocks x p -> sv_store t = Rocks y q -> p <> q).
  Lemma apart_step m x : apart m -> apart (snd (m_step m x)).
  Proof.
    intros [N A]. split; [now apply numbered_step|].
    assert (forall m1 i, mc_up m1 = upd (mc_up m) i None -> forall i0 j s t, mc_up m1 i0 = Some s -> mc_up m1 j = Some t -> i0 <> j ->
      sv_addr s <> sv_addr t /\ (forall x y p q, sv_store s = Rocks x p -> sv_store t = Rocks y q -> p <> q)) as Gone.
    { intros m1 i U i0 j s t. rewrite U. unfold upd. destruct (Nat.eqb_spec i0 i); [discriminate|]. destruct (Nat.eqb_spec j i); [discriminate|]. apply A. }
    destruct x as [e c|i q|i|i f k]; cbn [Startup.m_step].
    - destruct (launch m e c) as [l m'] eqn:E. cbn [snd]. destruct l as [k| |].
      2,3: destruct (@C59_not_started m e c _ m' E ltac:(discriminate)) as (U & X & _); intros i j s t; rewrite U; apply A.
      apply C59_started in E as (a & addr & rest & st & codes & fs & _ & _ & _ & Ls & Sv & _ & -> & ->).
      assert (forall j t, mc_up m j = Some t -> addr <> sv_addr t /\ (forall x y p q, st = Rocks x p -> sv_store t = Rocks y q -> p <> q)) as New.
      { intros j t U. split.
        - intros ->. rewrite (proj2 (listeningb_spec (sv_addr t) N)) in Ls; [discriminate|]. exists j, t. auto.
        - intros x y p q -> Ht ->. unfold serves in Sv. destruct (m_sub c) as [|[p0|]|p0 max rep].
          + destruct Sv; discriminate.
          + destruct Sv as (? & ? & _); discriminate.
          + destruct Sv; discriminate.
          + destruct Sv as (_ & Ud & _ & s0 & ds & _ & Es & _). inversion Es; subst.
            rewrite (proj2 (uses_dirb_spec p0 N)) in Ud; [discriminate|]. exists j, t, y. auto. }
      intros i j s t. cbn. unfold upd. destruct (Nat.eqb_spec i (mc_next m)) as [Ei|Ni]; destruct (Nat.eqb_spec j (mc_next m)) as [Ej|Nj]; intros Us Ut D; try congruence.
      + inversion Us; subst. cbn [sv_addr sv_store]. now apply (New j).
      + inversion Ut; subst. cbn [sv_addr sv_store]. destruct (New i s Us) as [X Y]. split; [congruence|]. intros x y p q Hs Ht ->. now apply (Y y x q q Ht Hs).
      + eapply A; eauto.
    - destruct (ask m i q) as [r m'] eqn:E. cbn [snd]. apply ask_up in E as [X U]. intros i0 j s t Us Ut D.
      pose proof (U i0) as U1. pose proof (U j) as U2. rewrite Us in U1. rewrite Ut in U2.
      destruct (mc_up m i0) as [s0|] eqn:U0; [|contradiction]. destruct (mc_up m j) as [t0|] eqn:V0; [|contradiction].
      destruct U1 as (A1 & P1 & _), U2 as (A2 & P2 & _). destruct (A _ _ _ _ U0 V0 D) as [B1 B2]. rewrite A1, A2. split; [exact B1|].
      intros x y p1 q1 Hs Ht. rewrite Hs in P1. rewrite Ht in P2. cbn [place] in P1, P2.
      destruct (sv_store s0) as [|x0 p0] eqn:Es0; [discriminate|]. destruct (sv_store t0) as [|y0 q0] eqn:Et0; [discriminate|]. cbn in P1, P2. inversion P1; inversion P2; subst.
      eapply B2; eauto.
    - now apply (Gone _ i).
    - destruct (kill_up m i f k). now apply (Gone _ i).
  Qed.
  Lemma apart_history f evs : apart (snd (m_trace (booted f) evs)).
  Proof. apply m_trace_ind; [|apply apart_step]. split; intros i; cbn; discriminate. Qed.

  Theorem C59_address_once f evs i j s t : let m := snd (m_trace (booted f) evs) in
    mc_up m i = Some s -> mc_up m j = Some t -> sv_addr s = sv_addr t -> i = j.
  Proof.
    intros m U V E. destruct (Nat.eq_dec i j) as [|N]; [assumption|]. destruct (apart_history f evs) as [_ A]. now destruct (A _ _ _ _ U V N).
  Qed.
  Theorem C59_dir_once f evs i j s t x y p : let m := snd (m_trace (booted f) evs) in
    mc_up m i = Some s -> mc_up m j = Some t -> sv_store s = Rocks x p -> sv_store t = Rocks y p -> i = j.
  Proof.
    intros m U V Es Et. destruct (Nat.eq_dec i j) as [|N]; [assumption|]. destruct (apart_history f evs) as [_ A]. destruct (A _ _ _ _ U V N) as [_ B].
    now elim (B _ _ _ _ Es Et).
  Qed.

  (** ** What touches the files *)

  (** A step changes the file at [p] only if it is a [sync] request to (or a kill
      during one of) an in-memory server with that path, and the directory at [p]
      only if it is a request to a RocksDB server on it or a start with it. *)
  Theorem C59_locality m x p :
    (f_image (mc_files (snd (m_step m x))) p <> f_image (mc_files m) p ->
      exists i s st, mc_up m i = Some s /\ sv_store s = Mem st (Some p) /\
        ((exists a f, x = ToServer i (ToMem a f) /\ a_req a = RqSync) \/ exists f k, x = Kill i f k)) /\
    (f_dir (mc_files (snd (m_step m x))) p <> f_dir (mc_files m) p ->
      (exists i s st a, x = ToServer i (ToRocks a) /\ mc_up m i = Some s /\ sv_store s = Rocks st p) \/
      (exists e c max r, x = Launch e c /\ m_sub c = SubRocksdb p max r)).
  Proof.
    destruct x as [e c|i q|i|i f k]; cbn [Startup.m_step].
    - destruct (launch m e c) as [l m'] eqn:E. cbn [snd].
      assert (f_image (mc_files m') = f_image (mc_files m) /\ ((forall max r, m_sub c <> SubRocksdb p max r) -> f_dir (mc_files m') p = f_dir (mc_files m) p)) as [A B].
      { destruct l as [i| |].
        2,3: destruct (@C59_not_started m e c _ m' E ltac:(discriminate)) as (_ & _ & A & B & _); split; [exact A|intros N; now apply B].
        apply C59_started in E as (a & addr & rest & st & codes & fs & _ & _ & _ & _ & Sv & _ & _ & ->). cbn [mc_files].
        unfold serves in Sv. destruct (m_sub c) as [|[p0|]|p0 max rep].
        - destruct Sv as [_ ->]; auto.
        - destruct Sv as (? & _ & -> & _); auto.
        - destruct Sv as [_ ->]; auto.
        - destruct Sv as (_ & _ & _ & s0 & ds & _ & _ & ->). cbn. split; [reflexivity|]. intros N. unfold set. destruct (bytes_eq_dec p p0) as [->|]; [|reflexivity].
          now elim (N max rep). }
      rewrite A. split; [congruence|]. intros N. right. exists e, c.
      destruct (m_sub c) as [| |p0 max rep] eqn:Sc.
      + elim N. apply B. discriminate.
      + elim N. apply B. discriminate.
      + destruct (bytes_eq_dec p0 p) as [->|Np]; [eauto|]. elim N. apply B. intros max0 r0 X. inversion X. now elim Np.
    - unfold Startup.ask. destruct (mc_up m i) as [s|] eqn:U; [|cbn; split; congruence].
      destruct (sv_store s) as [st [p0|]|st p0] eqn:Ss; destruct q as [a f|a]; cbn [snd]; try (split; congruence).
      + set (f0 := match f_dir (mc_files m) p0 with Some _ => no_rename f | None => f end).
        destruct (handle alnum enc dec (path_step dbg f0) (path_plugin dbg) (sv_codes s) (st, Disk (f_image (mc_files m) p0) None) a) as [r1 x] eqn:Hd.
        cbn. split; [|congruence]. intros N. unfold set in N. destruct (bytes_eq_dec p p0) as [->|]; [|congruence].
        exists i, s, st. conj; auto. left. exists a, f. split; [reflexivity|].
        assert (a_req a = RqSync \/ a_req a <> RqSync) as [Rq|Rq] by (destruct (a_req a); ((left; reflexivity) || (right; discriminate))); [exact Rq|].
        rewrite not_sync in Hd by assumption. destruct (handle alnum enc dec (mem_step dbg) (mem_plugin dbg) (sv_codes s) st a). inversion Hd; subst. now elim N.
      + destruct (handle _ _ _ _ _ _ _ _) as [r1 x]. cbn. split; congruence.
      + destruct (handle _ _ _ _ _ _ _ _) as [r1 x]. cbn. split; [congruence|]. intros N. unfold set in N. destruct (bytes_eq_dec p p0) as [->|]; [|congruence].
        left. exists i, s, st, a. auto.
    - cbn. split; congruence.
    - cbn [snd]. unfold kill. destruct (mc_up m i) as [s|] eqn:U; [|cbn; split; congruence].
      destruct (sv_store s) as [[mm|] [p0|]|st p0] eqn:Ss; cbn; try (split; congruence). split; [|congruence].
      intros N. unfold set in N. destruct (bytes_eq_dec p p0) as [->|]; [|congruence]. exists i, s, (Some mm). conj; auto. right. eauto.
  Qed.

  (** Servers started without a path for their data leave nothing behind. *)
  Theorem C59_memory_default f evs : (forall e c, In (Launch e c) evs -> m_sub c = NoSub \/ m_sub c = SubMemory None) ->
    mc_files (snd (m_trace (booted f) evs)) = f.
  Proof.
    assert (forall evs m, (forall i s, mc_up m i = Some s -> exists st, sv_store s = Mem st None) ->
      (forall e c, In (Launch e c) evs -> m_sub c = NoSub \/ m_sub c = SubMemory None) -> mc_files (snd (m_trace m evs)) = mc_files m) as G.
    { clear f evs. induction evs as [|x evs IH]; intros m I L; cbn [Startup.m_trace]; [reflexivity|].
      destruct (m_step m x) as [r m1] eqn:E. specialize (IH m1). destruct (m_trace m1 evs) as [rs m2]. cbn [snd] in *.
      assert (mc_files m1 = mc_files m /\ forall i s, mc_up m1 i = Some s -> exists st, sv_store s = Mem st None) as [F1 I1].
      { assert (forall i, mc_files (stop m i) = mc_files m /\ forall j s, mc_up (stop m i) j = Some s -> exists st, sv_store s = Mem st None) as Sp.
        { intros i. split; [reflexivity|]. intros j s. cbn. unfold upd. destruct (Nat.eqb_spec j i); [discriminate|]. apply I. }
        destruct x as [e c|i q|i|i g k]; cbn [Startup.m_step] in E.
        - destruct (launch m e c) as [l m'] eqn:El. inversion E; subst. specialize (L e c (or_introl eq_refl)). destruct l as [i| |].
          2,3: destruct (@C59_not_started m e c _ m1 El ltac:(discriminate)) as (_ & _ & _ & _ & A); rewrite A by (intros p0 max rr X; destruct L; congruence); auto.
          apply C59_started in El as (a & addr & rest & st & codes & fs & _ & _ & _ & _ & Sv & _ & -> & ->). cbn [mc_files mc_up].
          unfold serves in Sv. assert (st = Mem (Some mem_empty) None /\ fs = mc_files m) as [-> ->] by (destruct L as [L|L]; rewrite L in Sv; exact Sv).
          split; [reflexivity|]. intros j s. unfold upd. destruct (Nat.eqb_spec j (mc_next m)); [|apply I]. intros X; inversion X; subst. cbn. eauto.
        - unfold Startup.ask in E. destruct (mc_up m i) as [s|] eqn:U; [|inversion E; subst; auto]. destruct (I _ _ U) as [st Ss]. rewrite Ss in E.
          destruct q as [a g|a]; [|inversion E; subst; auto]. destruct (handle _ _ _ _ _ _ _ _) as [r1 x]. inversion E; subst. cbn. split; [reflexivity|].
          intros j s0. unfold upd. destruct (Nat.eqb_spec j i); [|apply I]. intros X; inversion X; subst. cbn. eauto.
        - inversion E; subst. apply Sp.
        - inversion E; subst. unfold kill. destruct (mc_up m i) as [s|] eqn:U; [|apply Sp]. destruct (I _ _ U) as [st Ss]. rewrite Ss. destruct st; apply Sp. }
      rewrite IH; auto. intros e c Hc. apply (L e c). now right. }
    intros L. now apply G.
  Qed.
End Machine.
