(** * Starting servers: server/src/cli.rs, server/src/main.rs, the opening of a
    RocksDB directory, and a machine on which several servers are started,
    asked and stopped. *)
From Coq Require Import String.
From Verif Require Import Base OMap Json Types Util Db Mem Rdb Proto Server Plugin PluginProg MsgPack Image Persist Deploy Conc.

Set Implicit Arguments.
Local Open Scope list_scope.
Local Notation bytes := (list byte).

(** ** Command line *)

(** The values clap found (cli.rs 79-84: [get_matches]), as raw bytes: how the
    command line is split into them is not modelled.  Options that were not given
    are [None]; [--repair] is a flag; the path of [rocksdb] is required. *)
Inductive subcommand :=
| NoSub
| SubMemory (persist : option bytes)
| SubRocksdb (path : bytes) (max_open_files : option bytes) (repair : bool).
Record matches := Matches { m_addr : option bytes; m_plugins : option bytes; m_sub : subcommand }.

(** cli.rs 4-20. *)
Inductive ds_args := AMemory (path : option bytes) | ARocksdb (path : bytes) (max_open_files : Z) (repair : bool).
Record cli_args := CliArgs { ca_addr : bytes; ca_ds : ds_args; ca_plugins : option bytes }.

(** cli.rs 40, 67: the defaults. *)
Definition default_addr : bytes := String.list_byte_of_string "127.0.0.1:27615".
Definition default_max : bytes := String.list_byte_of_string "512".

(** [i32::from_str]: an optional sign and at least one digit, within range. *)
Fixpoint digits (acc : Z) (l : bytes) : option Z :=
  match l with
  | [] => Some acc
  | b :: r => let n := Z.of_N (Byte.to_N b) in
              if (48 <=? n)%Z && (n <=? 57)%Z then digits (10 * acc + (n - 48))%Z r else None
  end.
Definition in_i32 (z : Z) : option Z := if (-2147483648 <=? z)%Z && (z <=? 2147483647)%Z then Some z else None.
Definition parse_i32 (l : bytes) : option Z :=
  match l with
  | [] => None
  | b :: r =>
    if (Byte.to_N b =? 43)%N then match r with [] => None | _ => obnd (digits 0 r) in_i32 end
    else if (Byte.to_N b =? 45)%N then match r with [] => None | _ => obnd (digits 0 r) (fun z => in_i32 (- z)) end
    else obnd (digits 0 l) in_i32
  end.

(** What [parse_cli_args] ends in: arguments, an exit with a message ([e.exit()],
    94), or a panic ([value_of] on text that is not UTF-8). *)
Inductive parsed := Args (a : cli_args) | UsageExit | ParsePanic.
(** clap's [value_of] with a default. *)
Definition value_of (v : option bytes) (default : bytes) : option bytes :=
  let s := match v with Some s => s | None => default end in if utf8_valid s then Some s else None.

(** cli.rs 86-105. *)
Definition parse_cli_args (m : matches) : parsed :=
  match value_of (m_addr m) default_addr with
  | None => ParsePanic
  | Some addr =>
    let finish ds :=
      match m_plugins m with
      | None => Args (CliArgs addr ds None)
      | Some p => if utf8_valid p then Args (CliArgs addr ds (Some p)) else ParsePanic
      end in
    match m_sub m with
    | SubMemory p => finish (AMemory p)
    | SubRocksdb path max repair =>
      match value_of max default_max with
      | None => ParsePanic
      | Some s => match parse_i32 s with Some z => finish (ARocksdb path z repair) | None => UsageExit end
      end
    | NoSub => finish (AMemory None)
    end
  end.

(** ** A RocksDB directory

    The column families it has besides the default one, and their contents.
    Assumption about RocksDB: [DB::open_cf] without [create_missing_column_families]
    fails unless exactly the families that exist are named; [DB::open] names none. *)
Record rdir := RDir { rd_cfs : list bytes; rd_db : db }.

(** rdb/datastore.rs 12-21. *)
Definition cf_names : list bytes := map String.list_byte_of_string
  ["vertices:v2"; "edge_ranges:v2"; "reversed_edge_ranges:v2"; "vertex_properties:v2"; "edge_properties:v2";
   "vertex_property_values:v2"; "edge_property_values:v2"; "metadata:v2"]%string.

(** Equality of names. *)
Definition bytes_eq_dec : forall a b : bytes, {a = b} + {a <> b} := list_eq_dec Byte.byte_eq_dec.
(** Whether all names are among others. *)
Definition subset (a b : list bytes) : bool := forallb (fun x => if in_dec bytes_eq_dec x b then true else false) a.

(** rdb/datastore.rs 383-385: the families are created one after the other; the
    states over time, and whether all were ([ok i]: the [i]-th could be). *)
Fixpoint create_cfs (ok : nat -> bool) (i : nat) (r : rdir) (names : list bytes) : bool * list rdir :=
  match names with
  | [] => (true, [r])
  | n :: ns => if ok i then let (b, l) := create_cfs ok (S i) (RDir (rd_cfs r ++ [n]) (rd_db r)) ns in (b, r :: l)
               else (false, [r])
  end.

(** What the operating system and RocksDB do while a directory is opened. *)
Record renv_open := ROpen {
  ro_first : bool;         (* [open_cf] is not hindered *)
  ro_second : bool;        (* nor [open] *)
  ro_create : nat -> bool  (* nor the creation of each family *) }.

(** rdb/datastore.rs 378-392 and 411-425, and [rdb_open]: the database or a
    failure, and the directory over time (oldest first). *)
Definition open_dir (e : renv_open) (d : option rdir) : outcome rstate * list (option rdir) :=
  let second r :=
    if ro_second e then
      match rd_cfs r with
      | [] => let (b, l) := create_cfs (ro_create e) 0 r cf_names in
              ((if b then rdb_open (rd_db r) else Err EDatastore), d :: map Some l)
      | _ => (Err EDatastore, [d])
      end
    else (Err EDatastore, [d]) in
  match d with
  | Some r => if ro_first e && subset cf_names (rd_cfs r) && subset (rd_cfs r) cf_names then (rdb_open (rd_db r), [d]) else second r
  | None => second (RDir [] db_empty)
  end.

(** ** A machine *)

(** Regular files and RocksDB directories, by path.  Simplification: different
    paths are different files. *)
Record files := Files { f_image : bytes -> option bytes; f_dir : bytes -> option rdir }.
Definition set {A} (f : bytes -> A) (p : bytes) (x : A) : bytes -> A := fun q => if bytes_eq_dec q p then x else f q.

(** What a running server serves (Deploy.v, Rdb.v). *)
Inductive store := Mem (m : mem_db) (path : option bytes) | Rocks (s : rstate) (path : bytes).
Record server := Srv { sv_addr : bytes; sv_store : store; sv_codes : list (bytes * code) }.
(** Running servers by process number. *)
Record machine := Machine { mc_files : files; mc_up : nat -> option server; mc_next : nat }.

(** What the outside does during one start. *)
Record launch_env := LEnv {
  le_resolve : bytes -> option (list bytes);   (* [to_socket_addrs]: [None] is an error *)
  le_free : bytes -> bool;                     (* no other program listens on the address *)
  le_visible : bytes -> bool;                  (* the path's metadata can be read *)
  le_readable : bytes -> bool;                 (* the file can be opened and read *)
  le_rocks : renv_open;
  le_repair : rdir -> option rdir;             (* what RocksDB's repair leaves *)
  le_glob : bytes -> option (list (bytes * library code)) }.   (* the plugins a pattern names *)

(** The answer of a start: a server runs under this number, [repair] ended, or
    the process ended with an error or a panic. *)
Inductive launched := Serving (i : nat) | Repaired | Ended.

Section Machine.
  Variable alnum : N -> bool.
  Variable enc : json -> bytes.
  Variable dec : bytes -> option json.
  Variable dbg : bool.
  Variable H : bytes -> N.
  Variable lim : nat.
  Variable ours : version.

  Definition listening (m : machine) (a : bytes) : Prop := exists i s, mc_up m i = Some s /\ sv_addr s = a.
  Definition uses_dir (m : machine) (p : bytes) : Prop := exists i s st, mc_up m i = Some s /\ sv_store s = Rocks st p.

  (** The same as booleans; [mc_next] bounds the process numbers. *)
  Definition listeningb (m : machine) (a : bytes) : bool :=
    existsb (fun i => match mc_up m i with Some s => if bytes_eq_dec (sv_addr s) a then true else false | None => false end) (seq 0 (mc_next m)).
  Definition uses_dirb (m : machine) (p : bytes) : bool :=
    existsb (fun i => match mc_up m i with
                      | Some s => match sv_store s with Rocks _ q => if bytes_eq_dec q p then true else false | _ => false end
                      | None => false end) (seq 0 (mc_next m)).

  (** main.rs 13-34 ([run_server]) and server.rs 353-375 ([run_with_plugins]):
      the plugins are loaded after the datastore was opened. *)
  Definition run_server (m : machine) (e : launch_env) (addr : bytes) (s : store) (plugins : option bytes) : launched * machine :=
    let up codes := (Serving (mc_next m), Machine (mc_files m) (upd (mc_up m) (mc_next m) (Some (Srv addr s codes))) (S (mc_next m))) in
    match plugins with
    | None => up []
    | Some pattern =>
      match le_glob e pattern with
      | None => (Ended, m)
      | Some libs => match load_plugins ours [] libs with Loaded ps => up ps | LoadFailed _ _ => (Ended, m) end
      end
    end.

  (** main.rs 45-71. *)
  Definition start_ds (m : machine) (e : launch_env) (addr : bytes) (a : cli_args) : launched * machine :=
    match ca_ds a with
    | ARocksdb path _ true =>
      if uses_dirb m path then (Ended, m)  (* RocksDB's lock; 51: [expect] *)
      else match f_dir (mc_files m) path with
           | None => (Ended, m)
           | Some r =>
             match le_repair e r with
             | Some r' => (Repaired, Machine (Files (f_image (mc_files m)) (set (f_dir (mc_files m)) path (Some r'))) (mc_up m) (mc_next m))
             | None => (Ended, m)
             end
           end
    | ARocksdb path _ false =>
      if uses_dirb m path then (Ended, m)
      else match f_image (mc_files m) path with
           | Some _ => (Ended, m)          (* a regular file *)
           | None =>
             let (r, ds) := open_dir (le_rocks e) (f_dir (mc_files m) path) in
             let m' := Machine (Files (f_image (mc_files m)) (set (f_dir (mc_files m)) path (last ds None))) (mc_up m) (mc_next m) in
             match r with
             | Ok s => run_server m' e addr (Rocks s path) (ca_plugins a)
             | _ => (Ended, m')              (* 60: [expect] *)
             end
           end
    | AMemory None => run_server m e addr (Mem (Some mem_empty) None) (ca_plugins a)
    | AMemory (Some p) =>
      (* 67: [Path::exists] is false also if the metadata cannot be read *)
      if le_visible e p then
        match f_image (mc_files m) p, f_dir (mc_files m) p with
        | Some b, _ =>
          if le_readable e p then
            match read_image lim b with
            | Some mem => run_server m e addr (Mem (Some mem) (Some p)) (ca_plugins a)
            | None => (Ended, m)
            end
          else (Ended, m)
        | None, Some _ => (Ended, m)         (* a directory cannot be read *)
        | None, None => run_server m e addr (Mem (Some mem_empty) (Some p)) (ca_plugins a)
        end
      else run_server m e addr (Mem (Some mem_empty) (Some p)) (ca_plugins a)
    end.

  (** main.rs 36-44. *)
  Definition launch (m : machine) (e : launch_env) (c : matches) : launched * machine :=
    match parse_cli_args c with
    | Args a =>
      match le_resolve e (ca_addr a) with
      | None | Some [] => (Ended, m)         (* an error; [next().unwrap()] *)
      | Some (addr :: _) => if le_free e addr && negb (listeningb m addr) then start_ds m e addr a else (Ended, m)
      end
    | UsageExit | ParsePanic => (Ended, m)
    end.

  (** A request to server [i].  The file of an in-memory server with a path is
      written by [sync] ([path_step] of Deploy.v; renaming a file onto a directory
      fails); what a RocksDB server writes is in its directory. *)
  Inductive question := ToMem (a : asked order) (f : fenv) | ToRocks (a : asked renv).
  Definition no_rename (f : fenv) : fenv := FEnv (fe_bytes f) (fe_bytes_ok f) (fe_temp f) (fe_early f) (fe_wrote f) (fe_late f) false.
  Definition ask (m : machine) (i : nat) (q : question) : option (srv response) * machine :=
    match mc_up m i with
    | None => (None, m)
    | Some s =>
      match sv_store s, q with
      | Mem st None, ToMem a _ =>
        let (r, st') := handle alnum enc dec (mem_step dbg) (mem_plugin dbg) (sv_codes s) st a in
        (Some r, Machine (mc_files m) (upd (mc_up m) i (Some (Srv (sv_addr s) (Mem st' None) (sv_codes s)))) (mc_next m))
      | Mem st (Some p), ToMem a f =>
        let f := match f_dir (mc_files m) p with Some _ => no_rename f | None => f end in
        let (r, x) := handle alnum enc dec (path_step dbg f) (path_plugin dbg) (sv_codes s) (st, Disk (f_image (mc_files m) p) None) a in
        (Some r, Machine (Files (set (f_image (mc_files m)) p (d_path (snd x))) (f_dir (mc_files m)))
                         (upd (mc_up m) i (Some (Srv (sv_addr s) (Mem (fst x) (Some p)) (sv_codes s)))) (mc_next m))
      | Rocks st p, ToRocks a =>
        let (r, st') := handle alnum enc dec (rdb_step H enc dec) (rdb_plugin H enc dec) (sv_codes s) st a in
        (Some r, Machine (Files (f_image (mc_files m)) (set (f_dir (mc_files m)) p (Some (RDir cf_names (r_db st')))))
                         (upd (mc_up m) i (Some (Srv (sv_addr s) (Rocks st' p) (sv_codes s)))) (mc_next m))
      | _, _ => (None, m)
      end
    end.

  (** A process ends (between requests). *)
  Definition stop (m : machine) (i : nat) : machine := Machine (mc_files m) (upd (mc_up m) i None) (mc_next m).
  (** A process is killed [k] steps into the [sync] of an in-memory database with a
      path (memory/datastore.rs 291-303, [sync_disks] of Persist.v). *)
  Definition kill (m : machine) (i : nat) (f : fenv) (k : nat) : machine :=
    match mc_up m i with
    | Some s =>
      match sv_store s with
      | Mem (Some mm) (Some p) =>
        let f := match f_dir (mc_files m) p with Some _ => no_rename f | None => f end in
        let d := Disk (f_image (mc_files m) p) None in
        stop (Machine (Files (set (f_image (mc_files m)) p (d_path (nth k (snd (sync_disks f mm d)) (sync_end f mm d)))) (f_dir (mc_files m)))
                      (mc_up m) (mc_next m)) i
      | _ => stop m i
      end
    | None => stop m i
    end.

  Inductive mevent := Launch (e : launch_env) (c : matches) | ToServer (i : nat) (q : question) | Stop (i : nat) | Kill (i : nat) (f : fenv) (k : nat).
  Inductive reply := RLaunched (l : launched) | RAnswer (r : option (srv response)) | RNone.
  Definition m_step (m : machine) (x : mevent) : reply * machine :=
    match x with
    | Launch e c => let (l, m') := launch m e c in (RLaunched l, m')
    | ToServer i q => let (r, m') := ask m i q in (RAnswer r, m')
    | Stop i => (RNone, stop m i)
    | Kill i f k => (RNone, kill m i f k)
    end.
  Fixpoint m_trace (m : machine) (l : list mevent) : list reply * machine :=
    match l with
    | [] => ([], m)
    | x :: l => let (r, m1) := m_step m x in let (rs, m2) := m_trace m1 l in (r :: rs, m2)
    end.
  (** No process runs. *)
  Definition booted (f : files) : machine := Machine f (fun _ => None) 0.
End Machine.
