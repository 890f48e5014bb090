(** * Plugins as programs over the [Transaction] trait, and servers running them:
    plugins/host/src/decl.rs 44-56 ([Plugin::call] gets [&mut dyn Transaction]),
    proto/src/server.rs 287-313 ([execute_plugin]), plugins/hello_world.

    In Server.v a plugin is any function of the datastore; here it is what a Rust
    plugin can be: code that reads and writes the database only through the
    methods of the transaction it is given.  A plugin that never returns, that
    starts threads of its own, or that is unsound ([unsafe]) is not modelled. *)
From Coq Require Import String.
From Verif Require Import Base OMap Json Types Util Db Mem Rdb Proto Server JsonText.

Set Implicit Arguments.
Local Open Scope list_scope.
Local Notation bytes := (list byte).

(** database.rs 24-104: the methods that read. *)
Inductive rcall : Type -> Type :=
| RVertexCount : rcall N
| RAllVertices : rcall (iter vertex)
| RRangeVertices (offset : uuid) : rcall (iter vertex)
| RSpecificVertices (ids : list uuid) : rcall (iter vertex)
| RVertexIdsWithProperty (name : ident) : rcall (option (iter uuid))
| RVertexIdsWithPropertyValue (name : ident) (value : json) : rcall (option (iter uuid))
| REdgeCount : rcall N
| RAllEdges : rcall (iter edge)
| RRangeEdges (offset : edge) : rcall (iter edge)
| RRangeReversedEdges (offset : edge) : rcall (iter edge)
| RSpecificEdges (edges : list edge) : rcall (iter edge)
| REdgesWithProperty (name : ident) : rcall (option (iter edge))
| REdgesWithPropertyValue (name : ident) (value : json) : rcall (option (iter edge))
| RVertexProperty (v : vertex) (name : ident) : rcall (option json)
| RAllVertexProperties (v : vertex) : rcall (iter (ident * json))
| REdgeProperty (e : edge) (name : ident) : rcall (option json)
| RAllEdgeProperties (e : edge) : rcall (iter (ident * json)).

Definition read_call {S B} (ops : txn_ops S) (s : S) (c : rcall B) : outcome B :=
  match c in rcall B return outcome B with
  | RVertexCount => t_vertex_count ops s
  | RAllVertices => t_all_vertices ops s
  | RRangeVertices u => t_range_vertices ops s u
  | RSpecificVertices l => t_specific_vertices ops s l
  | RVertexIdsWithProperty n => t_vertex_ids_with_property ops s n
  | RVertexIdsWithPropertyValue n v => t_vertex_ids_with_property_value ops s n v
  | REdgeCount => t_edge_count ops s
  | RAllEdges => t_all_edges ops s
  | RRangeEdges e => t_range_edges ops s e
  | RRangeReversedEdges e => t_range_reversed_edges ops s e
  | RSpecificEdges l => t_specific_edges ops s l
  | REdgesWithProperty n => t_edges_with_property ops s n
  | REdgesWithPropertyValue n v => t_edges_with_property_value ops s n v
  | RVertexProperty v n => t_vertex_property ops s v n
  | RAllVertexProperties v => t_all_vertex_properties ops s v
  | REdgeProperty e n => t_edge_property ops s e n
  | RAllEdgeProperties e => t_all_edge_properties ops s e
  end.

(** database.rs 106-195: the methods that write. *)
Inductive wcall : Type -> Type :=
| WDeleteVertices (vs : list vertex) : wcall unit
| WDeleteEdges (es : list edge) : wcall unit
| WDeleteVertexProperties (ps : list (uuid * ident)) : wcall unit
| WDeleteEdgeProperties (ps : list (edge * ident)) : wcall unit
| WSync : wcall unit
| WCreateVertex (v : vertex) : wcall bool
| WCreateEdge (e : edge) : wcall bool
| WBulkInsert (items : list bulk_item) : wcall unit
| WIndexProperty (name : ident) : wcall unit
| WSetVertexProperties (ids : list uuid) (name : ident) (value : json) : wcall unit
| WSetEdgeProperties (es : list edge) (name : ident) (value : json) : wcall unit.

Definition write_call {S B} (ops : txn_ops S) (s : S) (c : wcall B) : outcome B * S :=
  match c in wcall B return outcome B * S with
  | WDeleteVertices vs => t_delete_vertices ops s vs
  | WDeleteEdges es => t_delete_edges ops s es
  | WDeleteVertexProperties ps => t_delete_vertex_properties ops s ps
  | WDeleteEdgeProperties ps => t_delete_edge_properties ops s ps
  | WSync => t_sync ops s
  | WCreateVertex v => t_create_vertex ops s v
  | WCreateEdge e => t_create_edge ops s e
  | WBulkInsert items => t_bulk_insert ops s items
  | WIndexProperty n => t_index_property ops s n
  | WSetVertexProperties ids n v => t_set_vertex_properties ops s ids n v
  | WSetEdgeProperties es n v => t_set_edge_properties ops s es n v
  end.
(** The call of a history (Db.v) a writing method is. *)
Definition op_of {B} (c : wcall B) : op :=
  match c with
  | WDeleteVertices vs => TDeleteVertices vs
  | WDeleteEdges es => TDeleteEdges es
  | WDeleteVertexProperties ps => TDeleteVertexProperties ps
  | WDeleteEdgeProperties ps => TDeleteEdgeProperties ps
  | WSync => OSync
  | WCreateVertex v => OCreateVertex v
  | WCreateEdge e => OCreateEdge e
  | WBulkInsert items => OBulkInsert items
  | WIndexProperty n => OIndexProperty n
  | WSetVertexProperties ids n v => TSetVertexProperties ids n v
  | WSetEdgeProperties es n v => TSetEdgeProperties es n v
  end.

(** A [Result]. *)
Inductive result (A : Type) := ROk (a : A) | RErr (e : error).
Arguments ROk {A}. Arguments RErr {A}.

(** What the code does next: return (or panic) itself, or call a method and go
    on with its result; a method's panic unwinds the plugin. *)
Inductive prog (A : Type) : Type :=
| Done (r : outcome A)
| Read (B : Type) (c : rcall B) (k : result B -> prog A)
| Write (B : Type) (c : wcall B) (k : result B -> prog A).
Arguments Done {A}. Arguments Read {A B}. Arguments Write {A B}.

Section Run.
  Variables St Env : Type.
  Variable ops : Env -> txn_ops St.
  (** The [i]th method call sees the environment [envs i]. *)
  Fixpoint run_prog {A} (envs : nat -> Env) (i : nat) (p : prog A) (s : St) : outcome A * St :=
    match p with
    | Done r => (r, s)
    | Read c k =>
      match read_call (ops (envs i)) s c with
      | Ok b => run_prog envs (S i) (k (ROk b)) s
      | Err e => run_prog envs (S i) (k (RErr e)) s
      | Panic => (Panic, s)
      end
    | Write c k =>
      match write_call (ops (envs i)) s c with
      | (Ok b, s') => run_prog envs (S i) (k (ROk b)) s'
      | (Err e, s') => run_prog envs (S i) (k (RErr e)) s'
      | (Panic, s') => (Panic, s')
      end
    end.
End Run.

(** The code may make this writing call, with suitable answers to earlier calls. *)
Fixpoint may_write {A} (p : prog A) (o : op) : Prop :=
  match p with
  | Done _ => False
  | Read c k => exists r, may_write (k r) o
  | Write c k => o = op_of c \/ exists r, may_write (k r) o
  end.

(** A plugin's code. *)
Definition code := json -> prog json.

(** server.rs 299-306 on the in-memory datastore: the transaction holds the
    mutex while the plugin runs, so that a panic poisons it. *)
Definition mem_plugin (dbg : bool) (envs : nat -> order) (p : code) : plugin mem_db :=
  fun st arg =>
    match st with
    | None => (Panic, None)
    | Some m =>
      match run_prog (mem_ops dbg) envs 0 (p arg) m with
      | (Panic, _) => (Panic, None)
      | (r, m') => (r, Some m')
      end
    end.
(** On RocksDB. *)
Definition rdb_plugin (H : bytes -> N) (enc : json -> bytes) (dec : bytes -> option json) (envs : nat -> renv) (p : code) : plugin rstate :=
  fun s arg => run_prog (rdb_ops H enc dec) envs 0 (p arg) s.

(** A request with what its handling depends on besides the database: the
    environment of the call, the id drawn, the environments of a plugin's calls. *)
Record asked (Env : Type) := Asked { a_env : Env; a_fresh : uuid; a_envs : nat -> Env; a_req : request }.

Section Sessions.
  Variable alnum : N -> bool.
  Variable enc : json -> bytes.
  Variable dec : bytes -> option json.
  Variables St Env : Type.
  Variable step : St -> Env * op -> outcome res * St.
  (** How this datastore runs plugin code. *)
  Variable host : (nat -> Env) -> code -> plugin St.
  (** The loaded plugins. *)
  Variable codes : list (bytes * code).

  Definition hosted (envs : nat -> Env) : plugins St := map (fun x => (fst x, host envs (snd x))) codes.
  Definition handle (st : St) (a : asked Env) : srv response * St :=
    serve alnum enc dec step (hosted (a_envs a)) st (a_env a) (a_fresh a) (a_req a).
  Definition session (st : St) (l : list (asked Env)) : St := fold_left (fun st a => snd (handle st a)) l st.

  (** The database call a request asks for, if it is well formed. *)
  Definition request_op (fresh : uuid) (rq : request) : option op :=
    match rq with
    | RqPing | RqExecutePlugin _ _ => None
    | RqSync => Some OSync
    | RqCreateVertex v => match of_vertex alnum v with COk v => Some (OCreateVertex v) | CErr _ => None end
    | RqCreateVertexFromType t => match of_ident alnum t with COk t => Some (OCreateVertexFromType fresh t) | CErr _ => None end
    | RqCreateEdge e => match of_edge alnum e with COk e => Some (OCreateEdge e) | CErr _ => None end
    | RqGet q => match of_query alnum dec q with COk q => Some (OGet q) | CErr _ => None end
    | RqDelete q => match of_query alnum dec q with COk q => Some (ODelete q) | CErr _ => None end
    | RqSetProperties r => match of_set_req alnum dec r with COk (q, n, v) => Some (OSetProperties q n v) | CErr _ => None end
    | RqBulkInsert items => match read_stream alnum dec items with SOk l => Some (OBulkInsert l) | SErr _ => None end
    | RqIndexProperty r => match of_index_req alnum r with COk n => Some (OIndexProperty n) | CErr _ => None end
    end.
  (** The calls that handling a request may make. *)
  Definition issues (a : asked Env) (o : op) : Prop :=
    request_op (a_fresh a) (a_req a) = Some o \/
    exists name arg v p, a_req a = RqExecutePlugin name arg /\ In (name, p) codes /\ may_write (p v) o.
End Sessions.

(** plugins/hello_world/src/lib.rs 8-16: a greeting with the argument's text;
    [Display] of a [Value] is its compact form. *)
Definition greeting : bytes := String.list_byte_of_string "hello, ".
Definition hello_world (fmt : N -> bytes) : code :=
  fun arg => Done
    (match Bool.bool_dec (wf_raw (RStr (greeting ++ to_text fmt arg))) true with
     | left E => Ok (exist _ (RStr (greeting ++ to_text fmt arg)) E)
     | right _ => Panic   (* does not arise: a [String] is UTF-8 *)
     end).
