(** * The graph stored in a RocksDB database, by decoding its column families. *)
From Verif Require Import Base OMap Json Types Util Db Rdb Spec QueryFacts SpecFacts KeyFacts RdbRep.

Set Implicit Arguments.

(** A map from decoded entries; entries that do not decode are left out. *)
Definition of_entries {K V} {O : Ord K} (l : list (outcome (K * V))) : omap K V :=
  fold_right (fun x m => match x with Ok (k, v) => set k v m | _ => m end) empty l.

Section Graph.
  Variable dec : bytes -> option json.

  Definition vertex_entry (kv : bytes * bytes) : outcome (uuid * ident) :=
    let? v := dec_vertex kv in Ok (vid v, vt v).
  Definition edge_entry (kv : bytes * bytes) : outcome (edge * unit) :=
    let? e := dec_edge kv in Ok (e, tt).
  Definition vprop_entry (kv : bytes * bytes) : outcome (uuid * ident * json) :=
    let? (id, _) := read_uuid (fst kv) in dec_vprop dec id kv.
  Definition eprop_entry (kv : bytes * bytes) : outcome (edge * ident * json) :=
    let? (a, r) := read_uuid (fst kv) in
    let? (t, r) := read_identifier r in
    let? (b, _) := read_uuid r in dec_eprop dec (Edge a t b) kv.

  (** The stored graph, with the indexed names held in memory. *)
  Definition rgof (s : rstate) : graph :=
    Graph (of_entries (map vertex_entry (elems (d_vertices (r_db s)))))
          (of_entries (map edge_entry (elems (d_edges (r_db s)))))
          (of_entries (map vprop_entry (elems (d_vprops (r_db s)))))
          (of_entries (map eprop_entry (elems (d_eprops (r_db s)))))
          (r_indexed s).
End Graph.

Section Abs.
  Variable H : list byte -> N.
  Variable enc : json -> bytes.
  Variable dec : bytes -> option json.

  Lemma of_entries_rep {K V} {O : Ord K} (kf : K -> bytes) (vf : V -> bytes) (df : bytes * bytes -> outcome (K * V)) c t :
    (forall a b, kf a = kf b -> a = b) ->
    table_rep kf vf c t ->
    (forall k v, get k t = Some v -> df (kf k, vf v) = Ok (k, v)) ->
    of_entries (map df (elems c)) = t.
  Proof.
    intros Hi R Hd. destruct (rep_elems Hi df (fun kv => kv) R Hd) as (ks & -> & Hs & Hin).
    rewrite map_id. apply omap_ext. intros k.
    assert (forall ks : list (K * V), StronglySorted (fun a b => lt (kf (fst a)) (kf (fst b))) ks ->
              (forall v, In (k, v) ks -> get k (of_entries (map Ok ks)) = Some v) /\
              ((forall v, ~ In (k, v) ks) -> get k (of_entries (map Ok ks)) = None)) as G.
    { clear. intros l. induction l as [|[k1 v1] l IH]; intros Hs.
      - split; [intros v []|intros _; apply get_empty].
      - inversion Hs as [|? ? Hs' Hf]; subst. destruct (IH Hs') as [I1 I2].
        change (of_entries (map Ok ((k1, v1) :: l))) with (set k1 v1 (of_entries (map Ok l))). rewrite get_set. split.
        + intros v [E|Hin]; [inversion E; subst; now rewrite eqb_refl|].
          destruct (eqb k k1) eqn:E; [|auto]. apply eqb_eq in E. subst.
          rewrite Forall_forall in Hf. apply Hf in Hin. cbn in Hin. now apply lt_irrefl in Hin.
        + intros N. destruct (eqb k k1) eqn:E.
          * apply eqb_eq in E. subst. exfalso. eapply N. left. reflexivity.
          * apply I2. intros v Hv. eapply N. right. exact Hv. }
    destruct (G ks Hs) as [G1 G2]. destruct (get k t) as [v|] eqn:E.
    - apply G1. now apply Hin.
    - apply G2. intros v Hv. apply Hin in Hv. congruence.
  Qed.

  Lemma rgof_rep s L : rep H enc dec (r_db s) L -> rgof dec s = gabs L (r_indexed s).
  Proof.
    intros R. unfold rgof, gabs. f_equal.
    - eapply of_entries_rep; [apply (@vertex_key_inj H)|apply (rp_v R)|]. intros k v _. unfold vertex_entry.
      rewrite <- (prefix_ident H v), dec_vertex_ok. reflexivity.
    - eapply of_entries_rep; [apply (@edge_key_inj H)|apply (rp_e R)|]. intros k [] _. unfold edge_entry.
      now rewrite dec_edge_ok.
    - eapply of_entries_rep; [apply (@vpk_inj H)|apply (rp_vp R)|]. intros [i n] v Hv. unfold vprop_entry.
      cbn [fst]. unfold vpk at 1. rewrite vprop_key_eq, read_uuid_app. cbn [obind].
      apply dec_vprop_ok. apply (rp_vgood R _ Hv).
    - eapply of_entries_rep; [apply (@epk_inj H)|apply (rp_ep R)|]. intros [e n] v Hv. unfold eprop_entry.
      cbn [fst]. unfold epk at 1. rewrite eprop_key_eq, edge_key_eq, <- !app_assoc, read_uuid_app. cbn [obind].
      rewrite read_identifier_app. cbn [obind]. rewrite read_uuid_app. cbn [obind].
      cbn [fst snd]. replace (Edge (eout e) (et e) (ein e)) with e by now destruct e.
      apply dec_eprop_ok. apply (rp_egood R _ Hv).
  Qed.
End Abs.
