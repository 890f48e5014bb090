(** * Storage keys: injective, prefix-free, decodable, ordered. *)
From Verif Require Import Base OMap Json Types Util Db Rdb JsonFacts UtilFacts SpecFacts Spec QueryFacts.

Set Implicit Arguments.

(** ** Lists *)

Lemma app_inj_len {A} (a a' b b' : list A) : length a = length a' -> a ++ b = a' ++ b' -> a = a' /\ b = b'.
Proof.
  revert a'; induction a as [|x a IH]; intros [|y a'] L E; try discriminate; [auto|].
  cbn in E. inversion E; subst. inversion L. destruct (IH a' H0 H1). subst. auto.
Qed.

Lemma starts_with_iff p k : starts_with p k = true <-> exists r, k = p ++ r.
Proof.
  revert k; induction p as [|a p IH]; intros k; cbn.
  - split; [eauto|reflexivity].
  - destruct k as [|b k]; [split; [discriminate|intros [r H]; discriminate]|].
    rewrite andb_true_iff, IH, eqb_eq. split.
    + intros [-> [r ->]]. eauto.
    + intros [r H]. inversion H; subst. eauto.
Qed.

Lemma list_cmp_app_same {A} {O : Ord A} (p a b : list A) : list_cmp (p ++ a) (p ++ b) = list_cmp a b.
Proof. induction p as [|x p IH]; cbn; [reflexivity|]. now rewrite cmp_refl. Qed.

(** Comparing concatenations whose first parts have equal length. *)
Lemma list_cmp_app {A} {O : Ord A} (a a' b b' : list A) : length a = length a' ->
  list_cmp (a ++ b) (a' ++ b') = match list_cmp a a' with Eq => list_cmp b b' | c => c end.
Proof.
  revert a'; induction a as [|x a IH]; intros [|y a'] L; try discriminate; cbn; [reflexivity|].
  inversion L. rewrite IH by assumption. now destruct (cmp x y).
Qed.

Lemma lt_list {A} {O : Ord A} (a b : list A) : lt a b <-> list_cmp a b = Lt.
Proof. reflexivity. Qed.

Lemma lt_app {A} {O : Ord A} (a a' b b' : list A) : length a = length a' ->
  lt (a ++ b) (a' ++ b') <-> lt a a' \/ a = a' /\ lt b b'.
Proof.
  intros L. rewrite !lt_list, list_cmp_app by assumption.
  destruct (list_cmp a a') eqn:E.
  - apply (cmp_eq (Ord := Ord_list)) in E. subst. split; [auto|]. intros [H|[_ H]]; [discriminate|assumption].
  - split; auto.
  - split; [discriminate|]. intros [H|[-> _]]; [discriminate|].
    pose proof (cmp_refl (O := Ord_list) a') as R. change (list_cmp a' a' = Eq) in R. congruence.
Qed.

Lemma lt_appb (a a' b b' : bytes) : length a = length a' ->
  lt (A := bytes) (a ++ b) (a' ++ b') <-> lt (A := bytes) a a' \/ a = a' /\ lt (A := bytes) b b'.
Proof. apply lt_app. Qed.

Lemma prefix_le {A} {O : Ord A} (p r : list A) : ~ lt (p ++ r) p.
Proof.
  rewrite lt_list. rewrite <- (app_nil_r p) at 2. rewrite list_cmp_app_same. destruct r; cbn; discriminate.
Qed.

(** Keys between a prefix and a key having it also have it. *)
Lemma between_prefix (p x r : bytes) : ~ lt x p -> lt x (p ++ r) -> exists r', x = p ++ r'.
Proof.
  revert x; induction p as [|a p IH]; intros x H1 H2; [exists x; reflexivity|].
  destruct x as [|b x]; [exfalso; apply H1; reflexivity|].
  change (list_cmp (b :: x) (a :: p) <> Lt) in H1. change (list_cmp (b :: x) ((a :: p) ++ r) = Lt) in H2.
  cbn [list_cmp app] in H1, H2. destruct (cmp b a) eqn:E.
  - apply cmp_eq in E. subst. destruct (IH x) as [r' ->]; [exact H1|exact H2|]. exists r'. reflexivity.
  - exfalso. apply H1. reflexivity.
  - discriminate.
Qed.

(** ** Scans *)

Lemma scan_prefix_In (c : cf) (p k v : bytes) :
  In (k, v) (scan_prefix c p p) <-> get k c = Some v /\ exists r, k = p ++ r.
Proof.
  unfold scan_prefix. rewrite (take_while_is_filter (R := klt (V := bytes))).
  - rewrite filter_In, from_In. cbn [fst]. rewrite starts_with_iff. split.
    + tauto.
    + intros [H [r ->]]. repeat split; eauto. apply prefix_le.
  - apply from_sorted.
  - intros [x vx] [y vy] Hx Hy Hlt. cbn [fst]. rewrite !starts_with_iff. intros [r ->].
    apply from_In in Hx as [_ Hx]. eapply between_prefix; eauto.
Qed.

Lemma scan_prefix_sorted (c : cf) (p q : bytes) : StronglySorted (klt (V := bytes)) (scan_prefix c p q).
Proof. apply take_while_sorted, from_sorted. Qed.

(** ** Components *)

(** The stored form of an identifier: length byte and bytes. *)
Definition ik (i : ident) : bytes := byte_of (lenN (ib i)) :: ib i.

Lemma ib_lenN i : (lenN (ib i) < 256)%N.
Proof. unfold lenN. pose proof (ib_length i). lia. Qed.
Lemma ik_head i : bN (byte_of (lenN (ib i))) = lenN (ib i).
Proof. rewrite bN_byte_of. apply N.mod_small, ib_lenN. Qed.

Lemma ik_prefix_free a b r r' : ik a ++ r = ik b ++ r' -> a = b /\ r = r'.
Proof.
  unfold ik. cbn. intros E. inversion E as [[E1 E2]].
  assert (lenN (ib a) = lenN (ib b)) as L by (rewrite <- (ik_head a), <- (ik_head b); congruence).
  apply app_inj_len in E2 as [E2 ->]; [|unfold lenN in L; lia]. split; [now apply ib_inj|reflexivity].
Qed.
Lemma ik_inj a b : ik a = ik b -> a = b.
Proof. intros E. apply (@ik_prefix_free a b [] []). now rewrite !app_nil_r. Qed.

(** Order of stored identifiers: by length, then bytes. *)
Definition slt (a b : ident) : Prop :=
  (length (ib a) < length (ib b))%nat \/ length (ib a) = length (ib b) /\ lt a b.

Lemma lt_ident a b : lt a b <-> lt (ib a) (ib b).
Proof. reflexivity. Qed.
Lemma lt_uuid a b : lt a b <-> lt (ub a) (ub b).
Proof. reflexivity. Qed.

Lemma lt_ik a b r r' : lt (ik a ++ r) (ik b ++ r') <-> slt a b \/ a = b /\ lt r r'.
Proof.
  unfold ik, slt. rewrite <- !app_comm_cons, lt_list. cbn [list_cmp].
  change (cmp (byte_of (lenN (ib a))) (byte_of (lenN (ib b))))
    with (N.compare (bN (byte_of (lenN (ib a)))) (bN (byte_of (lenN (ib b))))).
  rewrite !ik_head. unfold lenN.
  destruct (N.compare_spec (N.of_nat (length (ib a))) (N.of_nat (length (ib b)))) as [E|E|E].
  - assert (length (ib a) = length (ib b)) as L by lia.
    change (lt (ib a ++ r) (ib b ++ r') <->
      ((length (ib a) < length (ib b))%nat \/ length (ib a) = length (ib b) /\ lt a b) \/ a = b /\ lt r r').
    rewrite lt_app by assumption. rewrite <- lt_ident. split.
    + intros [H|[H1 H2]]; [left; right; auto|right]. split; [now apply ib_inj|assumption].
    + intros [[H|[_ H]]|[-> H]]; [lia|auto|auto].
  - split; [intros _; left; left; lia|reflexivity].
  - split; [discriminate|]. intros [[H|[H _]]|[-> _]]; lia.
Qed.

Lemma slt_order : type_order slt.
Proof.
  split.
  - intros t [H|[_ H]]; [lia|now apply lt_irrefl in H].
  - intros a b c [H1|[E1 H1]] [H2|[E2 H2]]; unfold slt.
    + left; lia.
    + left; lia.
    + left; lia.
    + right. split; [lia|]. eapply lt_trans; eauto.
  - intros t [H|[_ H]].
    + cbn in H. lia.
    + now apply ident_empty_min in H.
Qed.

#[global] Arguments vertex_key : simpl never.
#[global] Arguments edge_key : simpl never.
#[global] Arguments vprop_key : simpl never.
#[global] Arguments eprop_key : simpl never.
#[global] Arguments vvalue_key : simpl never.
#[global] Arguments evalue_key : simpl never.
#[global] Arguments be64 : simpl never.
#[global] Arguments ik : simpl never.

(** ** Keys *)

Section Keys.
  Variable H : list byte -> N.

  (** The eight bytes stored for a value. *)
  Definition hb (v : json) : bytes := be64 (H (json_stream v)).

  Lemma be_bytes_length k n : length (be_bytes k n) = k.
  Proof. clear H. revert n; induction k as [|k IH]; intros n; cbn; [reflexivity|]. rewrite app_length, IH. cbn. lia. Qed.
  Lemma hb_length v : length (hb v) = 8%nat.
  Proof. apply be_bytes_length. Qed.

  Lemma vertex_key_eq id : vertex_key H id = ub id.
  Proof. unfold vertex_key, build. cbn. apply app_nil_r. Qed.
  Lemma edge_key_eq e : edge_key H e = ub (eout e) ++ ik (et e) ++ ub (ein e).
  Proof. unfold edge_key, build, ik. cbn. now rewrite app_nil_r. Qed.
  Lemma vprop_key_eq id n : vprop_key H id n = ub id ++ ib n.
  Proof. unfold vprop_key, build. cbn. now rewrite app_nil_r. Qed.
  Lemma eprop_key_eq e n : eprop_key H e n = edge_key H e ++ ib n.
  Proof.
    rewrite edge_key_eq. unfold eprop_key, build, ik. cbn. rewrite app_nil_r.
    rewrite <- !app_assoc. cbn. now rewrite <- !app_assoc.
  Qed.
  Lemma vvalue_key_eq n v id : vvalue_key H n v id = ik n ++ hb v ++ ub id.
  Proof. unfold vvalue_key, build, ik. cbn. now rewrite app_nil_r. Qed.
  Lemma evalue_key_eq n v e : evalue_key H n v e = ik n ++ hb v ++ edge_key H e.
  Proof. rewrite edge_key_eq. unfold evalue_key, build, ik. cbn. now rewrite app_nil_r. Qed.
  Lemma prefix_uuid id : build H [CUuid id] = ub id.
  Proof. unfold build. cbn. apply app_nil_r. Qed.
  Lemma prefix_ident n : build H [CIdent n] = ik n.
  Proof. unfold build. cbn. now rewrite app_nil_r. Qed.
  Lemma prefix_ident_json n v : build H [CIdent n; CJson v] = ik n ++ hb v.
  Proof. reflexivity. Qed.

  Lemma ub_prefix_free a b r r' : ub a ++ r = ub b ++ r' -> a = b /\ r = r'.
  Proof.
    intros E. apply app_inj_len in E as [E ->]; [|now rewrite !ub_length]. split; [now apply ub_inj|reflexivity].
  Qed.

  Lemma edge_key_prefix_free e f r r' : edge_key H e ++ r = edge_key H f ++ r' -> e = f /\ r = r'.
  Proof.
    rewrite !edge_key_eq, <- !app_assoc. intros E. apply ub_prefix_free in E as [E1 E].
    apply ik_prefix_free in E as [E2 E]. apply ub_prefix_free in E as [E3 E].
    destruct e, f; cbn in *; subst. auto.
  Qed.

  Lemma vertex_key_inj a b : vertex_key H a = vertex_key H b -> a = b.
  Proof. rewrite !vertex_key_eq. apply ub_inj. Qed.
  Lemma edge_key_inj e f : edge_key H e = edge_key H f -> e = f.
  Proof. intros E. apply (@edge_key_prefix_free e f [] []). now rewrite !app_nil_r. Qed.
  Definition vpk (k : uuid * ident) : bytes := vprop_key H (fst k) (snd k).
  Definition epk (k : edge * ident) : bytes := eprop_key H (fst k) (snd k).
  Lemma vpk_inj a b : vpk a = vpk b -> a = b.
  Proof.
    destruct a, b; unfold vpk; cbn [fst snd]. rewrite !vprop_key_eq. intros E. apply ub_prefix_free in E as [-> E].
    apply ib_inj in E. now subst.
  Qed.
  Lemma epk_inj a b : epk a = epk b -> a = b.
  Proof.
    destruct a, b; unfold epk; cbn [fst snd]. rewrite !eprop_key_eq. intros E. apply edge_key_prefix_free in E as [-> E].
    apply ib_inj in E. now subst.
  Qed.

  (** Index entries, with the eight hash bytes as data. *)
  Definition h8 := bsub (fun l : bytes => Nat.eqb (length l) 8).
  Definition h8b (x : h8) : bytes := proj1_sig x.
  Definition hash8 (v : json) : h8 := exist _ (hb v) (proj2 (Nat.eqb_eq _ _) (hb_length v)).
  Lemma h8b_hash v : h8b (hash8 v) = hb v.
  Proof. reflexivity. Qed.
  Lemma h8b_length x : length (h8b x) = 8%nat.
  Proof. destruct x as [l Hl]; cbn. now apply Nat.eqb_eq. Qed.
  Lemma h8b_inj x y : h8b x = h8b y -> x = y.
  Proof. apply bsub_eq. Qed.

  Definition vvk (k : ident * (h8 * uuid)) : bytes := ik (fst k) ++ h8b (fst (snd k)) ++ ub (snd (snd k)).
  Definition evk (k : ident * (h8 * edge)) : bytes := ik (fst k) ++ h8b (fst (snd k)) ++ edge_key H (snd (snd k)).
  Lemma vvk_inj a b : vvk a = vvk b -> a = b.
  Proof.
    destruct a as [n [x i]], b as [n' [y j]]; unfold vvk; cbn [fst snd]. intros E. apply ik_prefix_free in E as [-> E].
    apply app_inj_len in E as [E1 E2]; [|now rewrite !h8b_length]. apply h8b_inj in E1. apply ub_inj in E2. now subst.
  Qed.
  Lemma evk_inj a b : evk a = evk b -> a = b.
  Proof.
    destruct a as [n [x i]], b as [n' [y j]]; unfold evk; cbn [fst snd]. intros E. apply ik_prefix_free in E as [-> E].
    apply app_inj_len in E as [E1 E2]; [|now rewrite !h8b_length]. apply h8b_inj in E1. apply edge_key_inj in E2. now subst.
  Qed.
  Lemma vvalue_key_vvk n v id : vvalue_key H n v id = vvk (n, (hash8 v, id)).
  Proof. rewrite vvalue_key_eq. reflexivity. Qed.
  Lemma evalue_key_evk n v e : evalue_key H n v e = evk (n, (hash8 v, e)).
  Proof. rewrite evalue_key_eq. reflexivity. Qed.

  (** ** Reading keys back *)

  Lemma read_exact_app n (a r : bytes) : length a = n -> read_exact n (a ++ r) = Ok (a, r).
  Proof.
    clear H. intros <-. unfold read_exact. rewrite app_length.
    assert ((length a <=? length a + length r)%nat = true) as -> by (apply Nat.leb_le; lia).
    now rewrite firstn_app, skipn_app, firstn_all, skipn_all, Nat.sub_diag, firstn_O, skipn_O, app_nil_r.
  Qed.
  Lemma read_uuid_app u r : read_uuid (ub u ++ r) = Ok (u, r).
  Proof. unfold read_uuid. rewrite read_exact_app by apply ub_length. cbn [obind]. now rewrite mk_uuid_of. Qed.
  Lemma mk_ident_of i : mk_ident (ib i) = Some i.
  Proof.
    destruct i as [l Hl]. unfold mk_ident, ib. cbn [proj1_sig].
    destruct (bool_dec (ident_ok l) true) as [e|n]; [|contradiction]. apply (f_equal Some). now apply ib_inj.
  Qed.
  Lemma read_identifier_app i r : read_identifier (ik i ++ r) = Ok (i, r).
  Proof.
    clear H. unfold read_identifier, ik. cbn [app]. change (byte_of (lenN (ib i)) :: ib i ++ r) with ([byte_of (lenN (ib i))] ++ (ib i ++ r)).
    rewrite read_exact_app by reflexivity. cbn [obind]. rewrite ik_head.
    rewrite read_exact_app by (unfold lenN; lia). cbn [obind]. now rewrite mk_ident_of.
  Qed.
  Lemma read_name_of i : read_name (ib i) = Ok i.
  Proof. unfold read_name, read_fixed_length_string. rewrite ib_utf8. cbn [obind]. now rewrite mk_ident_of. Qed.
  Lemma read_u64_app (x : h8) r : read_u64 (h8b x ++ r) = Ok (h8b x, r).
  Proof. apply read_exact_app, h8b_length. Qed.

  Lemma dec_vertex_ok id t : dec_vertex (vertex_key H id, build H [CIdent t]) = Ok (Vertex id t).
  Proof.
    unfold dec_vertex. cbn [fst snd]. rewrite vertex_key_eq, prefix_ident. unfold dassert. rewrite ub_length. cbn [Nat.eqb].
    rewrite <- (app_nil_r (ub id)), read_uuid_app. cbn [obind]. rewrite <- (app_nil_r (ik t)), read_identifier_app. reflexivity.
  Qed.
  Lemma dec_edge_ok e b : dec_edge (edge_key H e, b) = Ok e.
  Proof.
    unfold dec_edge. cbn [fst]. rewrite edge_key_eq, read_uuid_app. cbn [obind]. rewrite read_identifier_app. cbn [obind].
    rewrite <- (app_nil_r (ub (ein e))), read_uuid_app. cbn [obind]. now destruct e.
  Qed.
  Lemma dec_vvalue_ok k b : dec_vvalue (vvk k, b) = Ok (snd (snd k)).
  Proof.
    unfold dec_vvalue, vvk. cbn [fst]. rewrite read_identifier_app. cbn [obind]. rewrite read_u64_app. cbn [obind].
    rewrite <- (app_nil_r (ub _)), read_uuid_app. reflexivity.
  Qed.
  Lemma dec_evalue_ok k b : dec_evalue (evk k, b) = Ok (snd (snd k)).
  Proof.
    unfold dec_evalue, evk. cbn [fst]. rewrite read_identifier_app. cbn [obind]. rewrite read_u64_app. cbn [obind].
    rewrite edge_key_eq, read_uuid_app. cbn [obind]. rewrite read_identifier_app. cbn [obind].
    rewrite <- (app_nil_r (ub (ein _))), read_uuid_app. cbn [obind]. now destruct (snd (snd k)).
  Qed.

  Variable dec : bytes -> option json.
  Lemma dec_vprop_ok id n b v : dec b = Some v -> dec_vprop dec id (vpk (id, n), b) = Ok (id, n, v).
  Proof.
    intros D. unfold dec_vprop, vpk. cbn [fst snd]. rewrite vprop_key_eq, read_uuid_app. cbn [obind].
    rewrite eqb_refl. cbn [dassert]. rewrite read_name_of. cbn [obind]. unfold from_slice. rewrite D. reflexivity.
  Qed.
  Lemma dec_eprop_ok e n b v : dec b = Some v -> dec_eprop dec e (epk (e, n), b) = Ok (e, n, v).
  Proof.
    intros D. unfold dec_eprop, epk. cbn [fst snd]. rewrite eprop_key_eq, edge_key_eq, <- !app_assoc, read_uuid_app. cbn [obind].
    rewrite eqb_refl. cbn [dassert]. rewrite read_identifier_app. cbn [obind].
    rewrite eqb_refl. cbn [dassert]. rewrite read_uuid_app. cbn [obind].
    rewrite eqb_refl. cbn [dassert]. rewrite read_name_of. cbn [obind]. unfold from_slice. rewrite D. cbn. now destruct e.
  Qed.

  (** ** Orders of keys *)

  Lemma vertex_key_lt a b : lt (vertex_key H a) (vertex_key H b) <-> lt a b.
  Proof. rewrite !vertex_key_eq. reflexivity. Qed.
  Lemma edge_key_lt e f : lt (edge_key H e) (edge_key H f) <-> elt slt e f.
  Proof.
    rewrite !edge_key_eq, lt_appb by now rewrite !ub_length. rewrite lt_ik. unfold elt. rewrite <- !lt_uuid. split.
    - intros [L|[E L]]; [auto|]. right. split; [now apply ub_inj|]. assumption.
    - intros [L|[E L]]; [auto|]. right. split; [congruence|]. assumption.
  Qed.
  Lemma vpk_lt id n n' : lt (vpk (id, n)) (vpk (id, n')) <-> lt n n'.
  Proof.
    unfold vpk. cbn [fst snd]. rewrite !vprop_key_eq, lt_appb by reflexivity. rewrite <- lt_ident. split; [|auto].
    intros [L|[_ L]]; [now apply lt_irrefl in L|assumption].
  Qed.
  Lemma epk_lt e n n' : lt (epk (e, n)) (epk (e, n')) <-> lt n n'.
  Proof.
    unfold epk. cbn [fst snd]. rewrite !eprop_key_eq, lt_appb by reflexivity. rewrite <- lt_ident. split; [|auto].
    intros [L|[_ L]]; [now apply lt_irrefl in L|assumption].
  Qed.
End Keys.
#[global] Instance Ord_h8 : Ord h8 := Ord_inj h8b h8b_inj.
