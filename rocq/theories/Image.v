(** * The persisted image of an in-memory database.

    memory/datastore.rs 27-35 ([derive(Serialize, Deserialize)] on
    [InternalMemory]), 291-303 ([sync] encodes it with rmp-serde) and 424-437
    ([read_msgpack_db] decodes it).  The serde representations: structs and
    tuples are arrays, [Uuid] is 16 binary bytes, [Identifier] a string
    (models/identifiers.rs 89-108), [Json] the JSON tree (models/json.rs
    197-215), [IndexedPropertyMember] a one-entry map from the variant name. *)
From Verif Require Import Base OMap Json Types Util UtilFacts Mem MemFacts JsonFacts KeyFacts MsgPack.

Set Implicit Arguments.

(** ** Writing *)

Fixpoint raw_mp (v : raw) : mp :=
  match v with
  | RNull => MNil
  | RBool b => MBool b
  | RPos n => MInt (Z.of_N n)
  | RNeg z => MInt z
  | RFlt b => MF64 b
  | RStr s => MStr s
  | RArr l => MArr (map raw_mp l)
  | RObj l => MMap (map (fun kv => (MStr (fst kv), raw_mp (snd kv))) l)
  end.
Definition json_mp (v : json) : mp := raw_mp (jraw v).
Definition uuid_mp (u : uuid) : mp := MBin (ub u).
Definition ident_mp (i : ident) : mp := MStr (ib i).
(** models/edges.rs 11-21 *)
Definition edge_mp (e : edge) : mp := MArr [uuid_mp (eout e); ident_mp (et e); uuid_mp (ein e)].
Definition s_vertex : list byte := [x56; x65; x72; x74; x65; x78].
Definition s_edge : list byte := [x45; x64; x67; x65].
(** memory/datastore.rs 18-21 *)
Definition member_mp (m : member) : mp :=
  match m with
  | MVertex u => MMap [(MStr s_vertex, uuid_mp u)]
  | MEdge e => MMap [(MStr s_edge, edge_mp e)]
  end.

(** Hash maps and hash sets are written in any order. *)
Inductive set_image (ms : oset member) : mp -> Prop :=
| set_image_intro l : Permutation (keys ms) l -> set_image ms (MArr (map member_mp l)).
Inductive container_image (c : container) : mp -> Prop :=
| container_image_intro c' l : Permutation c c' ->
    Forall2 (fun kv x => fst x = json_mp (fst kv) /\ set_image (snd kv) (snd x)) c' l ->
    container_image c (MMap l).
Inductive index_image (ix : omap ident container) : mp -> Prop :=
| index_image_intro c' l : Permutation (elems ix) c' ->
    Forall2 (fun kv x => fst x = ident_mp (fst kv) /\ container_image (snd kv) (snd x)) c' l ->
    index_image ix (MMap l).

Definition vertices_mp (m : omap uuid ident) : mp := MMap (map (fun kv => (uuid_mp (fst kv), ident_mp (snd kv))) (elems m)).
Definition edges_mp (m : oset edge) : mp := MArr (map edge_mp (keys m)).
Definition vprops_mp (m : omap (uuid * ident) json) : mp :=
  MMap (map (fun kv => (MArr [uuid_mp (fst (fst kv)); ident_mp (snd (fst kv))], json_mp (snd kv))) (elems m)).
Definition eprops_mp (m : omap (edge * ident) json) : mp :=
  MMap (map (fun kv => (MArr [edge_mp (fst (fst kv)); ident_mp (snd (fst kv))], json_mp (snd kv))) (elems m)).

Inductive memory_image (m : memory) : mp -> Prop :=
| memory_image_intro x : index_image (m_index m) x ->
    memory_image m (MArr [vertices_mp (m_vertices m); edges_mp (m_edges m); edges_mp (m_reversed m);
                          vprops_mp (m_vprops m); eprops_mp (m_eprops m); x]).

(** The bytes [sync] may write for a state. *)
Definition image (m : memory) (b : list byte) : Prop := exists x, memory_image m x /\ b = enc_mp x.

(** ** Reading *)

Section MapM.
  Context {A B : Type}.
  Variable f : A -> option B.
  Fixpoint map_m (l : list A) : option (list B) :=
    match l with
    | [] => Some []
    | a :: r => obnd (f a) (fun b => obnd (map_m r) (fun bs => Some (b :: bs)))
    end.
End MapM.

(** [Deserialize for serde_json::Value]: integers by sign, non-finite floats
    become null, objects are inserted into a [BTreeMap]. *)
Fixpoint mp_raw (v : mp) : option raw :=
  match v with
  | MNil => Some RNull
  | MBool b => Some (RBool b)
  | MInt z => Some (if (z <? 0)%Z then RNeg z else RPos (Z.to_N z))
  | MF64 b => Some (if (((b / 2 ^ 52) mod 2 ^ 11) =? 2047)%N then RNull else RFlt b)
  | MStr s => Some (RStr s)
  | MBin _ => None
  | MArr l => option_map RArr (map_m mp_raw l)
  | MMap l =>
    option_map (fun l => RObj (fold_left (fun o kv => lset (fst kv) (snd kv) o) l []))
      (map_m (fun kv => match fst kv with
                        | MStr k => option_map (pair k) (mp_raw (snd kv))
                        | _ => None
                        end) l)
  end.

Definition mk_json (v : raw) : option json :=
  match bool_dec (wf_raw v) true with left e => Some (exist _ v e) | right _ => None end.
Definition mp_json (v : mp) : option json := obnd (mp_raw v) mk_json.
Definition mp_uuid (v : mp) : option uuid := match v with MBin s => mk_uuid s | _ => None end.
(** [Identifier]'s [Deserialize] is unchecked; the model rejects strings longer
    than 255 bytes, which [sync] never writes. *)
Definition mp_ident (v : mp) : option ident := match v with MStr s => mk_ident s | _ => None end.
Definition mp_edge (v : mp) : option edge :=
  match v with
  | MArr [a; t; b] => obnd (mp_uuid a) (fun a => obnd (mp_ident t) (fun t => obnd (mp_uuid b) (fun b => Some (Edge a t b))))
  | _ => None
  end.
Definition mp_member (v : mp) : option member :=
  match v with
  | MMap [(MStr k, x)] =>
    if eqb k s_vertex then option_map MVertex (mp_uuid x)
    else if eqb k s_edge then option_map MEdge (mp_edge x) else None
  | _ => None
  end.
Definition mp_both {A B} (f : mp -> option A) (g : mp -> option B) (v : mp) : option (A * B) :=
  match v with MArr [a; b] => obnd (f a) (fun a => obnd (g b) (fun b => Some (a, b))) | _ => None end.

Definition mp_arr {A} (f : mp -> option A) (v : mp) : option (list A) :=
  match v with MArr l => map_m f l | _ => None end.
Definition mp_map {A B} (f : mp -> option A) (g : mp -> option B) (v : mp) : option (list (A * B)) :=
  match v with
  | MMap l => map_m (fun kv => obnd (f (fst kv)) (fun a => obnd (g (snd kv)) (fun b => Some (a, b)))) l
  | _ => None
  end.

(** Inserting the items one after the other. *)
Definition omap_of {K V} {O : Ord K} (l : list (K * V)) : omap K V := fold_left (fun m kv => set (fst kv) (snd kv) m) l empty.
Definition oset_of {K} {O : Ord K} (l : list K) : oset K := fold_left (fun m k => add k m) l empty.
(** [HashMap::insert] *)
Definition container_of (l : list (json * oset member)) : container :=
  fold_left (fun c kv => c_update (fst kv) (fun _ => snd kv) c) l [].

Definition mp_set (v : mp) : option (oset member) := option_map oset_of (mp_arr mp_member v).
Definition mp_container (v : mp) : option container := option_map container_of (mp_map mp_json mp_set v).
Definition mp_index (v : mp) : option (omap ident container) := option_map omap_of (mp_map mp_ident mp_container v).

Definition mp_memory (v : mp) : option memory :=
  match v with
  | MArr [v; e; r; vp; ep; x] =>
    obnd (mp_map mp_uuid mp_ident v) (fun v => obnd (mp_arr mp_edge e) (fun e => obnd (mp_arr mp_edge r) (fun r =>
    obnd (mp_map (mp_both mp_uuid mp_ident) mp_json vp) (fun vp =>
    obnd (mp_map (mp_both mp_edge mp_ident) mp_json ep) (fun ep =>
    obnd (mp_index x) (fun x =>
    Some (Memory (omap_of v) (oset_of e) (oset_of r) (omap_of vp) (omap_of ep) x)))))))
  | _ => None
  end.

(** memory/datastore.rs 424-437: [read_msgpack_db]; [d] is the decoder's
    nesting limit.  Trailing bytes are ignored. *)
Definition read_image (d : nat) (b : list byte) : option memory := obnd (dec_mp d b) (fun '(x, _) => mp_memory x).

(** ** What can be written *)

(** Lengths fit the format's 32 bits. *)
Fixpoint raw_fits (v : raw) : bool :=
  match v with
  | RStr s => (lenN s <? 2 ^ 32)%N
  | RArr l => (lenN l <? 2 ^ 32)%N && forallb raw_fits l
  | RObj l => (lenN l <? 2 ^ 32)%N && forallb (fun kv => (lenN (fst kv) <? 2 ^ 32)%N && raw_fits (snd kv)) l
  | _ => true
  end.
(** Nesting of a value: 1 for a scalar. *)
Fixpoint raw_depth (v : raw) : nat :=
  match v with
  | RArr l => S (lmax raw_depth l)
  | RObj l => S (Nat.max 1 (lmax (fun kv => raw_depth (snd kv)) l))
  | _ => 1%nat
  end.

(** A state within the limits of the format: fewer than [2^32] items anywhere,
    values nested at most [d] deep. *)
Record fits (d : nat) (m : memory) : Prop := Fits {
  fit_sizes : (size (m_vertices m) < 2 ^ 32 /\ size (m_edges m) < 2 ^ 32 /\ size (m_reversed m) < 2 ^ 32 /\
               size (m_vprops m) < 2 ^ 32 /\ size (m_eprops m) < 2 ^ 32 /\ size (m_index m) < 2 ^ 32)%N;
  fit_vprops : forall k v, get k (m_vprops m) = Some v -> raw_fits (jraw v) = true /\ (raw_depth (jraw v) <= d)%nat;
  fit_eprops : forall k v, get k (m_eprops m) = Some v -> raw_fits (jraw v) = true /\ (raw_depth (jraw v) <= d)%nat;
  fit_index : forall n c, get n (m_index m) = Some c -> (lenN c < 2 ^ 32)%N /\
    forall v ms, In (v, ms) c -> raw_fits (jraw v) = true /\ (raw_depth (jraw v) <= d)%nat /\ (size ms < 2 ^ 32)%N }.

(** Same database, up to the order of hash map entries. *)
Definition same_index (a b : omap ident container) : Prop :=
  forall n, match get n a, get n b with
            | Some c, Some c' => Permutation c c'
            | None, None => True
            | _, _ => False
            end.
Record same_memory (a b : memory) : Prop := SameMemory {
  sm_vertices : m_vertices a = m_vertices b;
  sm_edges : m_edges a = m_edges b;
  sm_reversed : m_reversed a = m_reversed b;
  sm_vprops : m_vprops a = m_vprops b;
  sm_eprops : m_eprops a = m_eprops b;
  sm_index : same_index (m_index a) (m_index b) }.

(** ** Reading back what was written *)

Lemma map_m_map {A B C} (f : B -> option C) (g : A -> B) (h : A -> C) l :
  (forall x, In x l -> f (g x) = Some (h x)) -> map_m f (map g l) = Some (map h l).
Proof.
  induction l as [|a l IH]; intros H; [reflexivity|]. cbn [map map_m]. rewrite H by now left. cbn [obnd].
  rewrite IH; [reflexivity|]. intros; apply H; now right.
Qed.

Lemma get_fold_set {K V} {O : Ord K} (l : list (K * V)) : forall (m : omap K V) k,
  NoDup (map fst l) -> get k (fold_left (fun m kv => set (fst kv) (snd kv) m) l m) =
    match lget k l with Some v => Some v | None => get k m end.
Proof.
  induction l as [|[a v] l IH]; intros m k ND; [reflexivity|].
  cbn [fold_left fst snd]. inversion ND as [|? ? Hn ND']; subst. rewrite IH by assumption.
  cbn [lget]. rewrite get_set. destruct (eqb k a) eqn:E; [|reflexivity].
  apply eqb_eq in E. subst. destruct (lget a l) eqn:G; [|reflexivity]. exfalso. apply Hn.
  clear - G. induction l as [|[b w] l IH]; [discriminate|]. cbn [lget map fst] in *.
  destruct (eqb a b) eqn:E; [apply eqb_eq in E; subst; now left|]. right. auto.
Qed.

Lemma omap_of_elems {K V} {O : Ord K} (m : omap K V) : omap_of (elems m) = m.
Proof.
  apply omap_ext. intros k. unfold omap_of. rewrite get_fold_set by apply keys_NoDup.
  unfold get at 2. destruct (lget k (elems m)); reflexivity.
Qed.

Lemma get_omap_of_perm {K V} {O : Ord K} (l : list (K * V)) (k : K) (v : V) :
  NoDup (map fst l) -> (get k (omap_of l) = Some v <-> In (k, v) l).
Proof.
  intros ND. unfold omap_of. rewrite get_fold_set by assumption.
  replace (match lget k l with Some v => Some v | None => get k empty end) with (lget k l) by (destruct (lget k l); reflexivity).
  induction l as [|[a w] l IH]; cbn [lget In]; [split; [discriminate|tauto]|].
  inversion ND as [|? ? Hn ND']; subst. destruct (eqb k a) eqn:E.
  - apply eqb_eq in E. subst. split.
    + intros H; inversion H; subst; auto.
    + intros [H|H]; [inversion H; reflexivity|]. exfalso. apply Hn. now apply (in_map fst) in H.
  - rewrite IH by assumption. split; [auto|]. intros [H|H]; [|assumption]. inversion H; subst.
    rewrite eqb_refl in E. discriminate.
Qed.

Lemma mem_oset_of {K} {O : Ord K} (l : list K) k : mem k (oset_of l) = inb k l.
Proof. unfold oset_of. rewrite mem_fold_add. cbn. now rewrite orb_false_r. Qed.

Lemma oset_of_perm {K} {O : Ord K} (m : oset K) l : Permutation (keys m) l -> oset_of l = m.
Proof.
  intros P. apply oset_ext. intros k. rewrite mem_oset_of. apply eq_true_iff_eq.
  rewrite inb_In, <- keys_In. split; apply Permutation_in; [now apply Permutation_sym|assumption].
Qed.

Lemma elems_fold_set {K V} {O : Ord K} (l : list (K * V)) : forall m : omap K V,
  elems (fold_left (fun m kv => set (fst kv) (snd kv) m) l m) = fold_left (fun o kv => lset (fst kv) (snd kv) o) l (elems m).
Proof. induction l as [|[k v] l IH]; intros m; cbn [fold_left]; [reflexivity|]. now rewrite IH. Qed.

Lemma keys_asc_sorted (l : list (list byte * raw)) : keys_ascb (map fst l) = sortedb l.
Proof.
  induction l as [|[k v] l IH]; [reflexivity|]. cbn [map fst keys_ascb sortedb]. destruct l as [|[k' v'] l]; [reflexivity|].
  cbn [map fst] in *. f_equal. exact IH.
Qed.

Lemma insert_sorted (l : list (list byte * raw)) : keys_ascb (map fst l) = true ->
  fold_left (fun o kv => lset (fst kv) (snd kv) o) l [] = l.
Proof.
  rewrite keys_asc_sorted. intros S. pose proof (elems_fold_set l (@empty (list byte) raw _)) as E.
  change (elems (@empty (list byte) raw _)) with (@nil (list byte * raw)) in E. rewrite <- E.
  pose proof (omap_of_elems (mkO l S)) as F. unfold omap_of in F. cbn [elems] in F. rewrite F. reflexivity.
Qed.

Lemma mp_raw_mp v : wf_raw v = true -> mp_raw (raw_mp v) = Some v.
Proof.
  induction v as [|b|n|z|b|s|l IH|l IH] using raw_nested_ind; intros W; cbn [raw_mp mp_raw].
  - reflexivity.
  - reflexivity.
  - destruct (Z.ltb_spec (Z.of_N n) 0); [lia|]. now rewrite N2Z.id.
  - cbn [wf_raw] in W. destruct (Z.ltb_spec z 0); [reflexivity|lia].
  - cbn [wf_raw] in W. apply andb_true_iff in W as [_ W]. apply negb_true_iff in W. now rewrite W.
  - reflexivity.
  - cbn [wf_raw] in W. rewrite (@map_m_map _ _ _ mp_raw raw_mp (fun x => x)).
    + now rewrite map_id.
    + intros x Hx. rewrite Forall_forall in IH. apply IH; [assumption|]. exact (forallb_forall_In _ _ _ W Hx).
  - cbn [wf_raw] in W. apply andb_true_iff in W as [A W].
    rewrite (@map_m_map _ _ _ _ (fun kv => (MStr (fst kv), raw_mp (snd kv))) (fun x => x)).
    + rewrite map_id. cbn [option_map]. now rewrite insert_sorted.
    + intros [k x] Hx. cbn [fst snd]. rewrite Forall_forall in IH. specialize (IH _ Hx). cbn [snd] in IH.
      pose proof (forallb_forall_In _ _ _ W Hx) as Wx. cbn [fst snd] in Wx. apply andb_true_iff in Wx as [_ Wx].
      now rewrite IH.
Qed.

Lemma mk_json_of v : mk_json (jraw v) = Some v.
Proof.
  destruct v as [r Hr]. unfold mk_json, jraw. cbn [proj1_sig].
  destruct (bool_dec (wf_raw r) true) as [e|n]; [|contradiction]. apply (f_equal Some). now apply bsub_eq.
Qed.
Lemma mp_json_mp v : mp_json (json_mp v) = Some v.
Proof. unfold mp_json, json_mp. rewrite mp_raw_mp by apply jraw_wf. cbn [obnd]. apply mk_json_of. Qed.
Lemma mp_uuid_mp u : mp_uuid (uuid_mp u) = Some u.
Proof. apply mk_uuid_of. Qed.
Lemma mp_ident_mp i : mp_ident (ident_mp i) = Some i.
Proof. apply mk_ident_of. Qed.
Lemma mp_edge_mp e : mp_edge (edge_mp e) = Some e.
Proof.
  unfold edge_mp, mp_edge. rewrite mp_uuid_mp. cbn [obnd]. rewrite mp_ident_mp. cbn [obnd]. rewrite mp_uuid_mp. cbn [obnd].
  now destruct e.
Qed.
Lemma mp_member_mp m : mp_member (member_mp m) = Some m.
Proof.
  destruct m as [u|e]; cbn [member_mp mp_member].
  - rewrite eqb_refl. now rewrite mp_uuid_mp.
  - assert (eqb s_edge s_vertex = false) as -> by reflexivity. rewrite eqb_refl. now rewrite mp_edge_mp.
Qed.

Lemma mp_set_image ms x : set_image ms x -> mp_set x = Some ms.
Proof.
  intros [l P]. unfold mp_set, mp_arr. rewrite (@map_m_map _ _ _ mp_member member_mp (fun x => x)).
  - rewrite map_id. cbn [option_map]. now rewrite (oset_of_perm _ P).
  - intros y _. apply mp_member_mp.
Qed.

Lemma c_update_append v f c : (forall kv, In kv c -> key_eq (fst kv) v = false) -> c_update v f c = c ++ [(v, f empty)].
Proof.
  induction c as [|[k ms] c IH]; intros H; [reflexivity|]. cbn [c_update app].
  pose proof (H (k, ms) (or_introl eq_refl)) as E. cbn [fst] in E. rewrite E. f_equal. apply IH. intros; apply H; now right.
Qed.

Lemma container_of_ok c : c_ok c -> container_of c = c.
Proof.
  unfold container_of, c_ok. intros Hc.
  enough (forall pre, (forall a b, In a pre -> In b c -> key_eq (fst a) (fst b) = false) ->
            fold_left (fun c kv => c_update (fst kv) (fun _ => snd kv) c) c pre = pre ++ c) as K.
  { apply K. intros a b []. }
  induction Hc as [|[k ms] c Hh Ht IH]; intros pre Hp; cbn [fold_left fst snd].
  - now rewrite app_nil_r.
  - rewrite c_update_append.
    + rewrite IH.
      * now rewrite <- app_assoc.
      * intros a b Ha Hb. apply in_app_iff in Ha as [Ha|[<-|[]]].
        -- apply Hp; [assumption|now right].
        -- rewrite Forall_forall in Hh. now apply Hh.
    + intros kv Hkv. apply (Hp kv (k, ms)); [assumption|now left].
Qed.

Lemma c_ok_perm c c' : Permutation c c' -> c_ok c -> c_ok c'.
Proof.
  unfold c_ok. induction 1 as [|x l l' P IH|x y l|l1 l2 l3 P1 IH1 P2 IH2]; intros Hc; auto.
  - inversion Hc as [|? ? Hh Ht]; subst. constructor; auto. rewrite Forall_forall in *. intros z Hz. apply Hh.
    eapply Permutation_in; [|exact Hz]. now apply Permutation_sym.
  - inversion Hc as [|? ? Hh Ht]; subst. inversion Ht as [|? ? Hh' Ht']; subst. inversion Hh as [|? ? Hxy Hyl]; subst.
    constructor; [constructor; auto|constructor; auto]. now rewrite key_eq_sym.
Qed.

Lemma map_m_Forall2 {A B} (f : B -> option A) (l : list A) (x : list B) :
  Forall2 (fun a b => f b = Some a) l x -> map_m f x = Some l.
Proof. induction 1 as [|a b l x H _ IH]; [reflexivity|]. cbn [map_m]. rewrite H. cbn [obnd]. now rewrite IH. Qed.

Lemma mp_container_image c x : c_ok c -> container_image c x ->
  exists c', mp_container x = Some c' /\ Permutation c c' /\ c_ok c'.
Proof.
  intros Hc [c' l P F]. exists c'. pose proof (c_ok_perm P Hc) as Hc'.
  split; [|auto]. unfold mp_container, mp_map.
  rewrite (@map_m_Forall2 _ _ _ c' l).
  - cbn [option_map]. now rewrite container_of_ok.
  - eapply Forall2_impl_In; [|exact F]. cbn beta. intros [k ms] [a b] _ _ [Ea Eb]. cbn [fst snd] in *. subst a.
    rewrite mp_json_mp. cbn [obnd]. now rewrite (mp_set_image Eb).
Qed.

Lemma mp_index_image ix x : (forall n c, get n ix = Some c -> c_ok c) -> index_image ix x ->
  exists ix', mp_index x = Some ix' /\ same_index ix ix' /\ (forall n c, get n ix' = Some c -> c_ok c).
Proof.
  intros Hix [c' l P F]. unfold mp_index, mp_map.
  assert (forall n c, In (n, c) c' -> c_ok c) as Hc'.
  { intros n c Hin. apply (Hix n). apply get_In. eapply Permutation_in; [|exact Hin]. now apply Permutation_sym. }
  assert (exists d, Forall2 (fun (a : ident * container) b =>
              obnd (mp_ident (fst b)) (fun a => obnd (mp_container (snd b)) (fun b => Some (a, b))) = Some a) d l /\
            Forall2 (fun a b : ident * container => fst a = fst b /\ Permutation (snd a) (snd b) /\ c_ok (snd b)) c' d) as (d & Fd & Fc).
  { clear P. revert Hc'. induction F as [|[n c] [a b] c' l [Ea Eb] F IH]; intros Hc'.
    - exists []. split; constructor.
    - destruct IH as (d & Fd & Fc). { intros m e Hin. apply (Hc' m). now right. }
      destruct (@mp_container_image c b (Hc' n c (or_introl eq_refl)) Eb) as (e & Ee & Pe & Oe).
      exists ((n, e) :: d). cbn [fst snd] in *. subst a. split.
      + constructor; [|assumption]. cbn [fst snd]. rewrite mp_ident_mp. cbn [obnd]. now rewrite Ee.
      + constructor; [|assumption]. cbn [fst snd]. auto. }
  exists (omap_of d). rewrite (map_m_Forall2 _ Fd). split; [reflexivity|].
  assert (map fst c' = map fst d) as Ek by (clear - Fc; induction Fc as [|a b l l' [E _] _ IH]; cbn [map]; [reflexivity|f_equal; assumption]).
  assert (NoDup (map fst c')) as ND'.
  { eapply Permutation_NoDup; [|apply (keys_NoDup ix)]. unfold keys. now apply Permutation_map. }
  assert (NoDup (map fst d)) as ND by congruence.
  split.
  - intros n. destruct (get n ix) as [c|] eqn:G.
    + apply get_In in G. apply (Permutation_in _ P) in G.
      assert (exists e, In (n, e) d /\ Permutation c e) as (e & He & Pe).
      { clear - Fc G. induction Fc as [|[a x] [b y] l l' (E & Px & _) _ IH]; [destruct G|]. cbn [fst snd] in *. subst.
        destruct G as [G|G].
        - inversion G; subst. exists y. split; [now left|assumption].
        - destruct (IH G) as (e & He & Pe). exists e. split; [now right|assumption]. }
      apply (@get_omap_of_perm _ _ _ _ _ _ ND) in He. now rewrite He.
    + destruct (get n (omap_of d)) as [e|] eqn:Gd; [|exact I].
      apply (@get_omap_of_perm _ _ _ _ _ _ ND) in Gd. apply (in_map fst) in Gd. cbn [fst] in Gd.
      rewrite <- Ek in Gd. apply in_map_iff in Gd as ([a c] & Ea & Hin). cbn [fst] in Ea. subst a.
      apply (Permutation_in _ (Permutation_sym P)) in Hin. apply get_In in Hin. congruence.
  - intros n e G. apply (@get_omap_of_perm _ _ _ _ _ _ ND) in G.
    clear - Fc G. induction Fc as [|[a x] [b y] l l' (E & _ & Ox) _ IH]; [destruct G|].
    destruct G as [G|G]; [|auto]. inversion G; subst. exact Ox.
Qed.

Lemma mp_memory_image m x : cok m -> memory_image m x ->
  exists m', mp_memory x = Some m' /\ same_memory m m' /\ cok m'.
Proof.
  intros Hc [ix Hix]. destruct (mp_index_image Hc Hix) as (ix' & E & S & O).
  exists (Memory (m_vertices m) (m_edges m) (m_reversed m) (m_vprops m) (m_eprops m) ix').
  split; [|split; [now constructor|exact O]].
  unfold mp_memory. unfold mp_map at 1, vertices_mp.
  rewrite (@map_m_map _ _ _ _ _ (fun x => x)).
  2:{ intros [k t] _. cbn [fst snd]. rewrite mp_uuid_mp. cbn [obnd]. now rewrite mp_ident_mp. }
  rewrite map_id. cbn [obnd]. unfold mp_arr at 1, edges_mp at 1.
  rewrite (@map_m_map _ _ _ _ _ (fun x => x)). 2:{ intros y _. apply mp_edge_mp. }
  rewrite map_id. cbn [obnd]. unfold mp_arr at 1, edges_mp at 1.
  rewrite (@map_m_map _ _ _ _ _ (fun x => x)). 2:{ intros y _. apply mp_edge_mp. }
  rewrite map_id. cbn [obnd]. unfold mp_map at 1, vprops_mp.
  rewrite (@map_m_map _ _ _ _ _ (fun x => x)).
  2:{ intros [[k n] v] _. cbn [fst snd mp_both]. rewrite mp_uuid_mp. cbn [obnd]. rewrite mp_ident_mp. cbn [obnd].
      now rewrite mp_json_mp. }
  rewrite map_id. cbn [obnd]. unfold mp_map at 1, eprops_mp.
  rewrite (@map_m_map _ _ _ _ _ (fun x => x)).
  2:{ intros [[k n] v] _. cbn [fst snd mp_both]. rewrite mp_edge_mp. cbn [obnd]. rewrite mp_ident_mp. cbn [obnd].
      now rewrite mp_json_mp. }
  rewrite map_id. cbn [obnd]. rewrite E. cbn [obnd].
  rewrite !omap_of_elems.
  now rewrite (oset_of_perm _ (Permutation_refl (keys (m_edges m)))), (oset_of_perm _ (Permutation_refl (keys (m_reversed m)))).
Qed.

(** ** Well-formedness and nesting of an image *)

Definition mp_fits (d : nat) (x : mp) : Prop := wf_mp x = true /\ (mp_depth x <= d)%nat.

Lemma mp_fits_arr d l : (lenN l < 2 ^ 32)%N -> (forall x, In x l -> mp_fits d x) -> mp_fits (S d) (MArr l).
Proof.
  intros L F. split.
  - cbn [wf_mp]. apply andb_true_iff. split; [now apply N.ltb_lt|]. apply forallb_forall. intros x Hx. now apply F.
  - cbn [mp_depth]. apply le_n_S, lmax_le. intros x Hx. now apply F.
Qed.
Lemma mp_fits_map d l : (lenN l < 2 ^ 32)%N -> (forall x, In x l -> mp_fits d (fst x) /\ mp_fits d (snd x)) -> mp_fits (S d) (MMap l).
Proof.
  intros L F. split.
  - cbn [wf_mp]. apply andb_true_iff. split; [now apply N.ltb_lt|]. apply forallb_forall. intros x Hx.
    destruct (F x Hx) as [[A _] [B _]]. now rewrite A, B.
  - cbn [mp_depth]. apply le_n_S, lmax_le. intros x Hx. destruct (F x Hx) as [[_ A] [_ B]]. lia.
Qed.
Lemma mp_fits_le d d' x : (d <= d')%nat -> mp_fits d x -> mp_fits d' x.
Proof. intros L [A B]. split; [assumption|lia]. Qed.

Lemma uuid_fits u : mp_fits 1 (uuid_mp u).
Proof.
  split; [|cbn; lia]. unfold uuid_mp. cbn [wf_mp]. unfold lenN. rewrite ub_length. reflexivity.
Qed.
Lemma ident_fits i : mp_fits 1 (ident_mp i).
Proof.
  split; [|cbn; lia]. unfold ident_mp. cbn [wf_mp]. apply andb_true_iff. split; [|apply ib_utf8].
  apply N.ltb_lt. pose proof (ib_lenN i). lia.
Qed.
Lemma edge_fits e : mp_fits 2 (edge_mp e).
Proof.
  apply mp_fits_arr; [reflexivity|].
  intros x [<-|[<-|[<-|[]]]]; [apply uuid_fits|apply ident_fits|apply uuid_fits].
Qed.
Lemma str_fits s d : (lenN s < 2 ^ 32)%N -> utf8_valid s = true -> (1 <= d)%nat -> mp_fits d (MStr s).
Proof. intros L U D. split; [|cbn; lia]. cbn [wf_mp]. rewrite U, andb_true_r. now apply N.ltb_lt. Qed.
Lemma member_fits m : mp_fits 3 (member_mp m).
Proof.
  destruct m as [u|e]; (apply mp_fits_map; [reflexivity|]); intros x [<-|[]]; cbn [fst snd]; split;
    try (apply str_fits; [reflexivity|reflexivity|lia]).
  - eapply mp_fits_le; [|apply uuid_fits]. lia.
  - apply edge_fits.
Qed.

Lemma raw_depth_pos v : (1 <= raw_depth v)%nat.
Proof. destruct v; cbn [raw_depth]; lia. Qed.

Lemma raw_fits_mp v : forall d, wf_raw v = true -> raw_fits v = true -> (raw_depth v <= d)%nat -> mp_fits d (raw_mp v).
Proof.
  induction v as [|b|n|z|b|s|l IH|l IH] using raw_nested_ind; intros d W F D; cbn [raw_mp].
  - split; [reflexivity|exact D].
  - split; [reflexivity|exact D].
  - split; [|exact D]. cbn [wf_mp wf_raw] in *. lia.
  - split; [|exact D]. cbn [wf_mp wf_raw] in *. lia.
  - split; [|exact D]. cbn [wf_mp wf_raw] in *. now apply andb_true_iff in W as [W _].
  - split; [|exact D]. cbn [wf_mp wf_raw raw_fits] in *. now rewrite F, W.
  - cbn [wf_raw raw_fits raw_depth] in *. apply andb_true_iff in F as [F1 F2]. destruct d as [|d]; [lia|].
    apply le_S_n in D. rewrite lmax_le in D. apply mp_fits_arr.
    + unfold lenN in *. rewrite map_length. now apply N.ltb_lt in F1.
    + intros x Hx. apply in_map_iff in Hx as (y & <- & Hy). rewrite Forall_forall in IH.
      apply IH; [assumption| | |now apply D].
      * exact (forallb_forall_In _ _ _ W Hy).
      * exact (forallb_forall_In _ _ _ F2 Hy).
  - cbn [wf_raw raw_fits raw_depth] in *. apply andb_true_iff in F as [F1 F2]. apply andb_true_iff in W as [_ W].
    destruct d as [|d]; [lia|]. apply le_S_n in D.
    assert (1 <= d)%nat as D1 by lia. assert (lmax (fun kv : list byte * raw => raw_depth (snd kv)) l <= d)%nat as D2 by lia.
    rewrite lmax_le in D2. apply mp_fits_map.
    + unfold lenN in *. rewrite map_length. now apply N.ltb_lt in F1.
    + intros x Hx. apply in_map_iff in Hx as ([k v] & <- & Hy). cbn [fst snd]. rewrite Forall_forall in IH.
      pose proof (forallb_forall_In _ _ _ W Hy) as Wy. pose proof (forallb_forall_In _ _ _ F2 Hy) as Fy.
      cbn [fst snd] in *. apply andb_true_iff in Wy as [U Wy]. apply andb_true_iff in Fy as [L Fy]. split.
      * apply str_fits; auto. now apply N.ltb_lt in L.
      * apply (IH _ Hy d Wy Fy). exact (D2 _ Hy).
Qed.

Lemma memory_fits d m x : fits d m -> memory_image m x -> mp_fits (d + 6) x.
Proof.
  intros [(S1 & S2 & S3 & S4 & S5 & S6) FV FE FI] [ix Hix].
  assert (forall d' v, raw_fits (jraw v) = true /\ (raw_depth (jraw v) <= d)%nat -> (d <= d')%nat -> mp_fits d' (json_mp v)) as J.
  { intros d' v [A B] L. apply raw_fits_mp; [apply jraw_wf|assumption|lia]. }
  replace (d + 6)%nat with (S (d + 5)) by lia. apply mp_fits_arr; [reflexivity|].
  intros y [<-|[<-|[<-|[<-|[<-|[<-|[]]]]]]].
  - replace (d + 5)%nat with (S (d + 4)) by lia. apply mp_fits_map.
    + unfold lenN. rewrite map_length. exact S1.
    + intros z Hz. apply in_map_iff in Hz as ([k t] & <- & _). cbn [fst snd]. split.
      * eapply mp_fits_le; [|apply uuid_fits]. lia.
      * eapply mp_fits_le; [|apply ident_fits]. lia.
  - replace (d + 5)%nat with (S (d + 4)) by lia. apply mp_fits_arr.
    + unfold lenN, keys. rewrite !map_length. exact S2.
    + intros z Hz. apply in_map_iff in Hz as (e & <- & _). eapply mp_fits_le; [|apply edge_fits]. lia.
  - replace (d + 5)%nat with (S (d + 4)) by lia. apply mp_fits_arr.
    + unfold lenN, keys. rewrite !map_length. exact S3.
    + intros z Hz. apply in_map_iff in Hz as (e & <- & _). eapply mp_fits_le; [|apply edge_fits]. lia.
  - replace (d + 5)%nat with (S (d + 4)) by lia. apply mp_fits_map.
    + unfold lenN. rewrite map_length. exact S4.
    + intros z Hz. apply in_map_iff in Hz as ([[k n] v] & <- & Hin). cbn [fst snd]. split.
      * replace (d + 4)%nat with (S (d + 3)) by lia. apply mp_fits_arr; [reflexivity|].
        intros w [<-|[<-|[]]]; [eapply mp_fits_le; [|apply uuid_fits]|eapply mp_fits_le; [|apply ident_fits]]; lia.
      * apply J; [|lia]. apply (FV (k, n)). now apply get_In.
  - replace (d + 5)%nat with (S (d + 4)) by lia. apply mp_fits_map.
    + unfold lenN. rewrite map_length. exact S5.
    + intros z Hz. apply in_map_iff in Hz as ([[k n] v] & <- & Hin). cbn [fst snd]. split.
      * replace (d + 4)%nat with (S (d + 3)) by lia. apply mp_fits_arr; [reflexivity|].
        intros w [<-|[<-|[]]]; [eapply mp_fits_le; [|apply edge_fits]|eapply mp_fits_le; [|apply ident_fits]]; lia.
      * apply J; [|lia]. apply (FE (k, n)). now apply get_In.
  - destruct Hix as [c' l P F].
    assert (length l = length (elems (m_index m))) as Ll.
    { rewrite (Permutation_length P). symmetry. clear - F. induction F; cbn; congruence. }
    replace (d + 5)%nat with (S (d + 4)) by lia. apply mp_fits_map.
    + unfold lenN. rewrite Ll. exact S6.
    + intros z Hz.
      assert (exists n c, In (n, c) c' /\ fst z = ident_mp n /\ container_image c (snd z)) as (n & c & Hin & Ez & Ci).
      { clear - F Hz. induction F as [|[n c] y c' l [E1 E2] F IH]; [destruct Hz|]. destruct Hz as [<-|Hz].
        - exists n, c. split; [now left|auto].
        - destruct (IH Hz) as (n' & c'' & H1 & H2). exists n', c''. split; [now right|assumption]. }
      apply (Permutation_in _ (Permutation_sym P)) in Hin. apply get_In in Hin. destruct (FI _ _ Hin) as [Lc Fc].
      rewrite Ez. split; [eapply mp_fits_le; [|apply ident_fits]; lia|].
      destruct Ci as [e le Pe Fe].
      assert (length le = length c) as Lle.
      { rewrite (Permutation_length Pe). symmetry. clear - Fe. induction Fe; cbn; congruence. }
      replace (d + 4)%nat with (S (d + 3)) by lia. apply mp_fits_map.
      * unfold lenN in *. now rewrite Lle.
      * intros w Hw.
        assert (exists v ms, In (v, ms) e /\ fst w = json_mp v /\ set_image ms (snd w)) as (v & ms & Hv & Ew & Si).
        { clear - Fe Hw. induction Fe as [|[v ms] y e le [E1 E2] F IH]; [destruct Hw|]. destruct Hw as [<-|Hw].
          - exists v, ms. split; [now left|auto].
          - destruct (IH Hw) as (v' & ms' & H1 & H2). exists v', ms'. split; [now right|assumption]. }
        apply (Permutation_in _ (Permutation_sym Pe)) in Hv. destruct (Fc _ _ Hv) as (A & B & C).
        rewrite Ew. split; [apply J; [auto|lia]|].
        destruct Si as [lm Pm]. replace (d + 3)%nat with (S (d + 2)) by lia.
        destruct lm as [|mb lm]; [split; [reflexivity|cbn; lia]|].
        (* a set image has nesting 4 *)
        assert (1 <= d)%nat as D1 by (pose proof (raw_depth_pos (jraw v)); lia).
        apply mp_fits_arr.
        -- unfold lenN. rewrite map_length, <- (Permutation_length Pm). unfold keys. rewrite map_length. exact C.
        -- intros y Hy. apply in_map_iff in Hy as (mb' & <- & _). eapply mp_fits_le; [|apply member_fits]. lia.
Qed.

(** ** Round trip *)

Theorem read_image_of d m b r : cok m -> fits d m -> image m b ->
  exists m', read_image (d + 6) (b ++ r) = Some m' /\ same_memory m m' /\ cok m'.
Proof.
  intros Hc Hf (x & Hx & ->). destruct (mp_memory_image Hc Hx) as (m' & E & S & O).
  exists m'. split; [|auto]. destruct (memory_fits Hf Hx) as [W D].
  unfold read_image. rewrite dec_enc_mp by assumption. exact E.
Qed.
