(** * Plugins: plugins/host/src/util.rs ([map]), plugins/host/src/decl.rs,
    plugins/naive_vertex_count, and loading (proto/src/server.rs 156-191). *)
From Coq Require Import String.
From Verif Require Import Base OMap Json Types Util Db Proto Server.

Set Implicit Arguments.
Local Open Scope list_scope.
Local Notation bytes := (list byte).

(** ** [util::map]: run a mapper on all vertices with a thread pool *)

Section Map.
  (** Errors of a mapper, and [Error::IndraDB] (errors.rs 8-20). *)
  Variable Er : Type.
  Variable indra : error -> Er.

  (** What [all_vertices] yields. *)
  Inductive item := IVertex (v : vertex) | IError (e : error).
  (** How one call of the mapper ends. *)
  Inductive jout := JOk | JErr (e : Er) | JPanic.
  Inductive phase := Looping | Joining | Returned (r : option Er).

  (** The threads: the caller iterating over [p_todo], having taken [p_i]
      items; the pool's queue and the jobs its threads are running; the calls
      that ended ([p_log], newest last, a ghost); [first_err] behind its mutex
      ([p_err]).  The lock is held for single updates only, so they are steps. *)
  Record pool := Pool {
    p_todo : list item;
    p_i : nat;
    p_queue : list vertex;
    p_running : list vertex;
    p_log : list (vertex * jout);
    p_err : option Er;
    p_phase : phase }.

  (** util.rs 49-51, 56-58: [if first_err.is_none() { *first_err = Some(err) }]. *)
  Definition record_err (old : option Er) (e : Er) : option Er := match old with None => Some e | Some x => Some x end.
  Definition after_call (old : option Er) (o : jout) : option Er := match o with JErr e => record_err old e | _ => old end.
  Definition is_some {A} (x : option A) : bool := match x with Some _ => true | None => false end.
  (** util.rs 33-35: the error is looked at every 1000 items only. *)
  Definition stops (i : nat) (err : option Er) : bool := Nat.eqb (Nat.modulo i 1000) 0 && is_some err.

  (** The number of threads: util.rs 27. *)
  Variable num_threads : nat.
  Definition threads : nat := Nat.max num_threads 1.
  (** Which ends a mapper call may have. *)
  Variable behaves : vertex -> jout -> Prop.

  (** One step of some thread.  A thread whose job panics is replaced by the
      pool and the panic is not reported (crate threadpool). *)
  Inductive pstep : pool -> pool -> Prop :=
  (* util.rs 30-36: an item is taken and the loop is left *)
  | ps_break x todo i q run log err :
      stops (S i) err = true ->
      pstep (Pool (x :: todo) i q run log err Looping) (Pool todo (S i) q run log err Joining)
  (* 38-47: a job is submitted *)
  | ps_submit v todo i q run log err :
      stops (S i) err = false ->
      pstep (Pool (IVertex v :: todo) i q run log err Looping) (Pool todo (S i) (q ++ [v]) run log err Looping)
  (* 48-53: the iterator failed for this item *)
  | ps_item_error e todo i q run log err :
      stops (S i) err = false ->
      pstep (Pool (IError e :: todo) i q run log err Looping)
            (Pool todo (S i) q run log (record_err err (indra e)) Looping)
  (* 55: the iterator is exhausted *)
  | ps_end i q run log err : pstep (Pool [] i q run log err Looping) (Pool [] i q run log err Joining)
  (* a thread of the pool takes the oldest job *)
  | ps_start v todo i q run log err ph :
      (length run < threads)%nat ->
      pstep (Pool todo i (v :: q) run log err ph) (Pool todo i q (v :: run) log err ph)
  (* 42-47: a call of the mapper ends *)
  | ps_finish v o todo i q r1 r2 log err ph :
      behaves v o ->
      pstep (Pool todo i q (r1 ++ v :: r2) log err ph)
            (Pool todo i q (r1 ++ r2) (log ++ [(v, o)]) (after_call err o) ph)
  (* 57-68: [join] returns when no job is left *)
  | ps_join todo i log err :
      pstep (Pool todo i [] [] log err Joining) (Pool todo i [] [] log err (Returned err)).

  (** Any number of steps. *)
  Inductive psteps : pool -> pool -> Prop :=
  | pss_refl p : psteps p p
  | pss_step p q r : psteps p q -> pstep q r -> psteps p r.

  (** The start of [map] once [all_vertices] succeeded (util.rs 25-30). *)
  Definition pool_start (items : list item) : pool := Pool items 0 [] [] [] None Looping.
End Map.
Arguments JOk {Er}. Arguments JPanic {Er}. Arguments Looping {Er}. Arguments Joining {Er}.

(** ** Versions and loading *)

(** decl.rs 15-24: [VersionInfo]. *)
Record version := Version { rustc : bytes; plugin_interface : N }.
Definition version_eq_dec (a b : version) : {a = b} + {a <> b}.
Proof. decide equality; [apply N.eq_dec|apply (list_eq_dec Byte.byte_eq_dec)]. Defined.

(** decl.rs 26-34: [VersionInfo::default] for a compiler version. *)
Definition default_version (compiler : bytes) : version := Version compiler 1.

Section Load.
  Variable Plug : Type.

  (** decl.rs 58-62: [PluginDeclaration].  [entries] is a [HashMap]: names are
      distinct. *)
  Record declaration := Declaration { d_version : version; d_entries : list (bytes * Plug) }.

  (** decl.rs 64-84: [register_plugins!].  The first macro argument is not
      used.  Inserting a name again replaces the plugin. *)
  Definition register_plugins (compiler : bytes) (interface : N) (ps : list (bytes * Plug)) : declaration :=
    Declaration (default_version compiler) (rev ps).

  (** What [Library::new] and [library.get(b"register")] give. *)
  Inductive library := LibBroken | LibNoRegister | LibOk (d : declaration).

  (** server.rs 38-55: [InitError] (its loading cases). *)
  Inductive init_error := LibLoading (path : bytes) | VersionMismatch (path : bytes) (theirs ours : version).
  Inductive loading := Loaded (entries : list (bytes * Plug)) | LoadFailed (e : init_error).

  (** server.rs 165-190: the loop of [new_with_plugins]; [acc] are the entries
      so far, newest first. *)
  Fixpoint load_plugins (ours : version) (acc : list (bytes * Plug)) (libs : list (bytes * library)) : loading :=
    match libs with
    | [] => Loaded acc
    | (path, lib) :: rest =>
      match lib with
      | LibBroken | LibNoRegister => LoadFailed (LibLoading path)
      | LibOk d =>
        if version_eq_dec (d_version d) ours then load_plugins ours (d_entries d ++ acc) rest
        else LoadFailed (VersionMismatch path (d_version d) ours)
      end
    end.
End Load.

(** ** The example plugin naive_vertex_count *)

(** naive_vertex_count/src/lib.rs 16-21: each call adds one, [fetch_add] on an
    [AtomicU64], and succeeds. *)
Definition counts (Er : Type) (v : vertex) (o : jout Er) : Prop := o = JOk.
(** naive_vertex_count/src/lib.rs 26-38: the counter after [map], as JSON; the
    counter is a [u64]. *)
Definition naive_count {Er} (p : pool Er) : N := N.of_nat (length (p_log p)) mod 18446744073709551616.
