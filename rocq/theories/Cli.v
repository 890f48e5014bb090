(** * The command line client: client/src/main.rs.

    Clap (splitting the command line, required arguments, help texts) and the
    connection to the server are not modelled: a command is one subcommand with
    its argument strings.  What is printed is modelled by the value printed,
    not by the text [Debug] makes of it. *)
From Coq Require Import String.
From Verif Require Import Base OMap Json Types Util Db Proto Server.

Set Implicit Arguments.
Local Open Scope list_scope.
Local Notation bytes := (list byte).

(** ** uuid 1.12.0, src/parser.rs: [Uuid::parse_str] *)

(** A hexadecimal digit of either case ([HEX_TABLE]). *)
Definition hexdigit (b : byte) : option N :=
  let n := bN b in
  if (48 <=? n)%N && (n <=? 57)%N then Some (n - 48)%N
  else if (97 <=? n)%N && (n <=? 102)%N then Some (n - 87)%N
  else if (65 <=? n)%N && (n <=? 70)%N then Some (n - 55)%N
  else None.

(** [parse_simple]: pairs of digits. *)
Fixpoint pairs (s : bytes) : option bytes :=
  match s with
  | [] => Some []
  | [_] => None
  | a :: b :: r =>
    match hexdigit a, hexdigit b, pairs r with
    | Some x, Some y, Some l => Some (byte_of (16 * x + y) :: l)
    | _, _, _ => None
    end
  end.
Definition parse_simple (s : bytes) : option uuid :=
  match pairs s with Some l => mk_uuid l | None => None end.

(** [parse_hyphenated]: hyphens at 8, 13, 18 and 23, digits elsewhere.
    (The crate reads four digits at each of eight places, in order.) *)
Definition hyphen_at (s : bytes) (n : nat) : bool :=
  match nth_error s n with Some b => (bN b =? 45)%N | None => false end.
Definition slice (s : bytes) (i n : nat) : bytes := firstn n (skipn i s).
Definition parse_hyphenated (s : bytes) : option uuid :=
  if negb (length s =? 36)%nat then None
  else if hyphen_at s 8 && hyphen_at s 13 && hyphen_at s 18 && hyphen_at s 23 then
    parse_simple (slice s 0 4 ++ slice s 4 4 ++ slice s 9 4 ++ slice s 14 4 ++
                  slice s 19 4 ++ slice s 24 4 ++ slice s 28 4 ++ slice s 32 4)
  else None.

(** [strip_prefix] (uuid crate, [try_parse]). *)
Fixpoint strip (p s : bytes) : option bytes :=
  match p, s with
  | [], _ => Some s
  | a :: p', b :: s' => if (bN a =? bN b)%N then strip p' s' else None
  | _ :: _, [] => None
  end.
(** The bytes of [urn:uuid:]. *)
Definition urn : bytes := [x75; x72; x6e; x3a; x75; x75; x69; x64; x3a].

(** [try_parse]: the form is decided by the length. *)
Definition parse_uuid (s : bytes) : option uuid :=
  if (length s =? 32)%nat then parse_simple s
  else if (length s =? 36)%nat then parse_hyphenated s
  else if (length s =? 38)%nat then
    match s with
    | b :: r => if (bN b =? 123)%N && (bN (last r x00) =? 125)%N then parse_hyphenated (removelast r) else None
    | [] => None
    end
  else if (length s =? 45)%nat then match strip urn s with Some r => parse_hyphenated r | None => None end
  else None.

(** ** Commands *)

(** main.rs 48-145: the subcommands, with their argument strings.  [name] of
    the property readers and [id] of [set vertex] are optional. *)
Inductive cmd :=
| KPing
| KSetVertex (t : bytes) (id : option bytes)
| KSetEdge (o t i : bytes)
| KSetVertexProperty (u n v : bytes)
| KSetEdgeProperty (o t i n v : bytes)
| KCountVertex
| KCountEdge
| KGetVertex (u : bytes)
| KGetEdge (o t i : bytes)
| KGetVertexProperty (u : bytes) (n : option bytes)
| KGetEdgeProperty (o t i : bytes) (n : option bytes)
| KDeleteVertex (u : bytes)
| KDeleteEdge (o t i : bytes)
| KDeleteVertexProperty (u n : bytes)
| KDeleteEdgeProperty (o t i n : bytes).

(** The value given to [println!]. *)
Inductive printed :=
| PNothing
| POk
| PVertex (v : vertex)
| PEdge (e : edge)
| PCount (n : N)
| PVertices (l : option (list vertex))
| PEdges (l : option (list edge))
| PVertexProperties (l : option (list vprops))
| PEdgeProperties (l : option (list eprops)).

(** The errors [run] returns: an argument that is no identifier, uuid or JSON
    text, a query builder's refusal, the client's error, [Error::UuidTaken] and
    [VertexInvalidError] (errors.rs 4-13). *)
Inductive cli_error := EIdentifier (e : verr) | EUuid | EJson | EQuery | EClient (e : client_error) | ETaken | EVertexInvalid.
(** How the process ends; [Crashed] is a panic. *)
Inductive exit := Printed (p : printed) | Failed (e : cli_error) | Crashed.

Section Cli.
  Variable alnum : N -> bool.
  Variable enc : json -> bytes.
  Variable dec : bytes -> option json.
  Variables St Env : Type.
  Variable step : St -> Env * op -> outcome res * St.
  Variable ps : plugins St.
  Variables (st : St) (env : Env) (fresh : uuid).
  (** [generate_uuid_v1] in the client process (main.rs 163). *)
  Variable drawn : uuid.

  Notation result := (exit * St)%type.
  (** [Identifier::new(s)?] *)
  Definition identifier (s : bytes) (k : ident -> result) : result :=
    match ident_new alnum s with VOk i => k i | VErr _ e => (Failed (EIdentifier e), st) end.
  (** [Uuid::parse_str(s)?] *)
  Definition uuid_arg (s : bytes) (k : uuid -> result) : result :=
    match parse_uuid s with Some u => k u | None => (Failed EUuid, st) end.
  (** [Json::from_str(s)?] *)
  Definition json_arg (s : bytes) (k : json -> result) : result :=
    match dec s with Some v => k v | None => (Failed EJson, st) end.
  (** [q.properties()?], [q.count()?] *)
  Definition builds (q : option query) (k : query -> result) : result :=
    match q with Some q => k q | None => (Failed EQuery, st) end.
  (** [PipePropertyQuery::name] (queries.rs 566-571). *)
  Definition with_name (n : ident) (q : query) : query :=
    match q with QPipeProperty i _ => QPipeProperty i (Some n) | q => q end.
  (** [client.call(..).await?] *)
  Definition call (c : ccall) (k : answer -> exit) : result :=
    let (r, st') := remote alnum enc dec step ps st env fresh c in
    match r with ClOk a => (k a, st') | ClErr e => (Failed (EClient e), st') end.

  (** [!res] on the answer of [create_vertex] and [create_edge]. *)
  Definition refused (a : answer) : bool := match a with ABool b => negb b | _ => false end.
  Definition values (a : answer) : list outv := match a with AValues l => l | _ => [] end.
  (** [extract_count(output).unwrap()] *)
  Definition count_of (a : answer) : exit :=
    match extract_count (values a) with Some n => Printed (PCount n) | None => Crashed end.
  Definition silent (_ : answer) : exit := Printed PNothing.

  (** main.rs 260-263: [build_vertex_query]. *)
  Definition vertex_query (u : bytes) (k : query -> result) : result :=
    uuid_arg u (fun u => k (QSpecificVertex [u])).
  (** main.rs 265-270: [build_edge]; the type is checked first. *)
  Definition build_edge (o t i : bytes) (k : edge -> result) : result :=
    identifier t (fun t => uuid_arg o (fun o => uuid_arg i (fun i => k (Edge o t i)))).

  (** main.rs 153-258: [run]. *)
  Definition run (c : cmd) : result :=
    match c with
    (* 157-160 *)
    | KPing => call CPing (fun _ => Printed POk)
    (* 162-173 *)
    | KSetVertex t id =>
      identifier t (fun t =>
        match id with Some s => uuid_arg s | None => fun k => k drawn end (fun u =>
          let v := Vertex u t in
          call (CCreateVertex v) (fun a => if refused a then Failed ETaken else Printed (PVertex v))))
    (* 174-180 *)
    | KSetEdge o t i =>
      build_edge o t i (fun e =>
        call (CCreateEdge e) (fun a => if refused a then Failed EVertexInvalid else Printed (PEdge e)))
    (* 181-187 *)
    | KSetVertexProperty u n v =>
      vertex_query u (fun q => identifier n (fun n => json_arg v (fun v => call (CSetProperties q n v) silent)))
    (* 188-194: name and value are checked before the edge *)
    | KSetEdgeProperty o t i n v =>
      identifier n (fun n => json_arg v (fun v => build_edge o t i (fun e =>
        call (CSetProperties (QSpecificEdge [e]) n v) silent)))
    (* 197-199 *)
    | KCountVertex => builds (count_new QAllVertex) (fun q => call (CGet q) count_of)
    (* 200-203 *)
    | KCountEdge => builds (count_new QAllEdge) (fun q => call (CGet q) count_of)
    (* 205-208 *)
    | KGetVertex u => vertex_query u (fun q => call (CGet q) (fun a => Printed (PVertices (extract_vertices (values a)))))
    (* 209-212 *)
    | KGetEdge o t i =>
      build_edge o t i (fun e => call (CGet (QSpecificEdge [e])) (fun a => Printed (PEdges (extract_edges (values a)))))
    (* 213-223 *)
    | KGetVertexProperty u n =>
      let get q := call (CGet q) (fun a => Printed (PVertexProperties (extract_vertex_properties (values a)))) in
      match n with
      | Some n => identifier n (fun n => vertex_query u (fun q => builds (pipe_property_new q) (fun q => get (with_name n q))))
      | None => vertex_query u (fun q => builds (pipe_property_new q) get)
      end
    (* 224-236: the edge is checked before the name *)
    | KGetEdgeProperty o t i n =>
      let get q := call (CGet q) (fun a => Printed (PEdgeProperties (extract_edge_properties (values a)))) in
      build_edge o t i (fun e =>
        let q := QSpecificEdge [e] in
        match n with
        | Some n => identifier n (fun n => builds (pipe_property_new q) (fun q => get (with_name n q)))
        | None => builds (pipe_property_new q) get
        end)
    (* 238-240 *)
    | KDeleteVertex u => vertex_query u (fun q => call (CDelete q) silent)
    (* 241-243 *)
    | KDeleteEdge o t i => build_edge o t i (fun e => call (CDelete (QSpecificEdge [e])) silent)
    (* 244-247 *)
    | KDeleteVertexProperty u n =>
      identifier n (fun n => vertex_query u (fun q => builds (pipe_property_new q) (fun q =>
        call (CDelete (with_name n q)) silent)))
    (* 248-253 *)
    | KDeleteEdgeProperty o t i n =>
      identifier n (fun n => build_edge o t i (fun e => builds (pipe_property_new (QSpecificEdge [e])) (fun q =>
        call (CDelete (with_name n q)) silent)))
    end.
End Cli.
