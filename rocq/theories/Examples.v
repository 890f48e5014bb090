(** * Concrete data used to show that hypotheses are met and that refuted
    claims fail. *)
From Verif Require Import Base OMap Json Types Util Db Mem Rdb Spec.

Set Implicit Arguments.

Definition ux (b : byte) : uuid := exist _ (repeat x00 15 ++ [b]) eq_refl.
Definition u1 : uuid := ux x01.
Definition u2 : uuid := ux x02.
Definition u3 : uuid := ux x03.
Definition umax : uuid := exist _ (repeat xff 16) eq_refl.

(** "person", "likes", "name", "age" *)
Definition t_person : ident := exist _ [x70; x65; x72; x73; x6f; x6e] eq_refl.
Definition t_likes : ident := exist _ [x6c; x69; x6b; x65; x73] eq_refl.
Definition n_name : ident := exist _ [x6e; x61; x6d; x65] eq_refl.
Definition n_age : ident := exist _ [x61; x67; x65] eq_refl.

Definition v1 : vertex := Vertex u1 t_person.
Definition v2 : vertex := Vertex u2 t_person.
Definition v3 : vertex := Vertex u3 t_likes.
Definition vmax : vertex := Vertex umax t_person.
Definition e12 : edge := Edge u1 t_likes u2.
Definition e21 : edge := Edge u2 t_likes u1.
Definition e23 : edge := Edge u2 t_likes u3.

(** Calls with the plain iteration order. *)
Definition calls (l : list op) : list (order * op) := map (fun o => (id_order, o)) l.

Definition j_true : json := exist _ (RBool true) eq_refl.
Definition j_false : json := exist _ (RBool false) eq_refl.
(** "bob" *)
Definition j_bob : json := exist _ (RStr [x62; x6f; x62]) eq_refl.
Definition j_3 : json := exist _ (RPos 3) eq_refl.
(** 3.0 *)
Definition j_3f : json := exist _ (RFlt 4613937818241073152) eq_refl.
