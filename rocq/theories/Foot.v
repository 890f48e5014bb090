(** * What a call reads and what it writes

    A specification, in terms of the API only: which vertices, edges and
    properties the result of a call can depend on, and which it can change.
    Nothing here refers to how a datastore works. *)
From Verif Require Import Base OMap Json Types Util Db Rdb Spec Conc.

Set Implicit Arguments.

(** What a database consists of. *)
Inductive part :=
| AVertex (id : uuid)                  (** whether there is a vertex [id], and its type *)
| AnEdge (e : edge)                    (** whether there is an edge [e] *)
| AVProp (id : uuid) (n : ident)       (** the property [n] of the vertex [id] *)
| AnEProp (e : edge) (n : ident).      (** the property [n] of the edge [e] *)

(** Name [n] is among those a property query asks for. *)
Definition named (name : option ident) (n : ident) : Prop := name = None \/ name = Some n.

(** What the (last) result of a query can consist of, whatever the database. *)
Fixpoint yields (q : query) (x : part) : Prop :=
  match q with
  | QAllVertex | QRangeVertex _ _ _ | QVertexWithPropertyPresence _ | QVertexWithPropertyValue _ _ =>
    exists id, x = AVertex id
  | QSpecificVertex ids => exists id, In id ids /\ x = AVertex id
  | QAllEdge | QEdgeWithPropertyPresence _ | QEdgeWithPropertyValue _ _ => exists e, x = AnEdge e
  | QSpecificEdge es => exists e, In e es /\ x = AnEdge e
  | QPipe inner dir _ _ =>
    (exists e, yields inner (AnEdge e) /\ x = AVertex (match dir with Outbound => eout e | Inbound => ein e end)) \/
    (exists e, yields inner (AVertex (match dir with Outbound => eout e | Inbound => ein e end)) /\ x = AnEdge e)
  | QPipeProperty inner name =>
    (exists id n, yields inner (AVertex id) /\ named name n /\ x = AVProp id n) \/
    (exists e n, yields inner (AnEdge e) /\ named name n /\ x = AnEProp e n)
  | QPipeWithPropertyPresence inner _ _ | QPipeWithPropertyValue inner _ _ _ => yields inner x
  | QInclude inner => yields inner x
  | QCount _ => False
  end.

(** What a query that uses the index of [n] looks at. *)
Definition indexed_under (n : ident) (x : part) : Prop :=
  (exists id, x = AVertex id) \/ (exists id, x = AVProp id n) \/ (exists e, x = AnEProp e n).
(** The edges with some property: also which edges there are. *)
Definition edges_indexed_under (n : ident) (x : part) : Prop :=
  indexed_under n x \/ exists e, x = AnEdge e.

(** What the answer of a query can depend on. *)
Fixpoint looks_at (q : query) (x : part) : Prop :=
  match q with
  | QAllVertex | QRangeVertex _ _ _ | QSpecificVertex _ | QAllEdge | QSpecificEdge _ => yields q x
  | QPipe inner _ _ _ | QPipeProperty inner _ => looks_at inner x \/ yields q x
  | QVertexWithPropertyPresence n | QVertexWithPropertyValue n _ => indexed_under n x
  | QEdgeWithPropertyPresence n | QEdgeWithPropertyValue n _ => edges_indexed_under n x
  | QPipeWithPropertyPresence inner n _ | QPipeWithPropertyValue inner n _ _ => looks_at inner x \/ indexed_under n x
  | QInclude inner | QCount inner => looks_at inner x
  end.

(** [e] leaves or enters [id]. *)
Definition touches (e : edge) (id : uuid) : Prop := eout e = id \/ ein e = id.

(** What disappears with [x]. *)
Definition goes_with (x y : part) : Prop :=
  match x with
  | AVertex id => y = AVertex id \/ (exists n, y = AVProp id n) \/
                  exists e, touches e id /\ (y = AnEdge e \/ exists n, y = AnEProp e n)
  | AnEdge e => y = AnEdge e \/ exists n, y = AnEProp e n
  | _ => y = x
  end.

(** Setting property [n] of [x]. *)
Definition property_of (x : part) (n : ident) (y : part) : Prop :=
  match x with
  | AVertex id => y = AVProp id n
  | AnEdge e => y = AnEProp e n
  | _ => False
  end.

Definition puts (it : bulk_item) : part :=
  match it with
  | BVertex v => AVertex (vid v)
  | BEdge e => AnEdge e
  | BVProp id n _ => AVProp id n
  | BEProp e n _ => AnEProp e n
  end.

(** What a call can change. *)
Definition alters (o : op) (y : part) : Prop :=
  match o with
  | OCreateVertex v => y = AVertex (vid v)
  | OCreateVertexFromType id _ => y = AVertex id
  | OCreateEdge e => y = AnEdge e
  | OGet _ | OSync => False
  | ODelete q => exists x, yields q x /\ goes_with x y
  | OSetProperties q n _ => exists x, yields q x /\ property_of x n y
  | OBulkInsert items => exists it, In it items /\ y = puts it
  | OIndexProperty _ => True
  | TDeleteVertices vs => exists v, In v vs /\ goes_with (AVertex (vid v)) y
  | TDeleteEdges es => exists e, In e es /\ goes_with (AnEdge e) y
  | TDeleteVertexProperties ps => exists p, In p ps /\ y = AVProp (fst p) (snd p)
  | TDeleteEdgeProperties ps => exists p, In p ps /\ y = AnEProp (fst p) (snd p)
  | TSetVertexProperties ids n _ => exists id, In id ids /\ y = AVProp id n
  | TSetEdgeProperties es n _ => exists e, In e es /\ y = AnEProp e n
  end.

(** What a call's result and effect can depend on.  (Overwriting or deleting
    something depends on what is there.) *)
Definition depends (o : op) (y : part) : Prop :=
  match o with
  | OCreateVertex _ | OCreateVertexFromType _ _ => alters o y
  | OCreateEdge e => alters o y \/ y = AVertex (eout e) \/ y = AVertex (ein e)
  | OGet q => looks_at q y
  | ODelete q => alters o y \/ looks_at q y \/ exists e, yields q (AnEdge e) /\ y = AVertex (eout e)
  | OSetProperties q _ _ => alters o y \/ looks_at q y
  | OBulkInsert items => alters o y \/ exists e, In (BEdge e) items /\ (y = AVertex (eout e) \/ y = AVertex (ein e))
  | OSync => False
  | TDeleteEdges es => alters o y \/ exists e, In e es /\ y = AVertex (eout e)
  | _ => alters o y
  end.

Lemma alters_depends o x : alters o x -> depends o x.
Proof. destruct o; cbn [alters depends]; intros A; auto; contradiction. Qed.

(** Neither call changes what the other depends on, and neither is
    [index_property]. *)
Definition apart (o o' : op) : Prop :=
  (forall n, o <> OIndexProperty n) /\ (forall n, o' <> OIndexProperty n) /\
  forall x, (alters o x -> depends o' x -> False) /\ (alters o' x -> depends o x -> False).

(** In the history [h], calls that overlap in time are [apart]; if one returned
    before the other was invoked, they may be anything. *)
Definition apart_when_concurrent (h : list event) : Prop :=
  forall c t o c' t' o', In (Inv c t o) h -> In (Inv c' t' o') h -> c <> c' ->
    (exists r, before h (Ret c r) (Inv c' t' o')) \/ (exists r, before h (Ret c' r) (Inv c t o)) \/ apart o o'.
