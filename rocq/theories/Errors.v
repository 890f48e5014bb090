(** * The texts of errors: lib/src/errors.rs, proto/src/converters.rs 23-62,
    proto/src/server.rs 19-36 and 57-117, plugins/host/src/errors.rs.

    An error of another library ([serde_json], [uuid], [rocksdb], [io], ...)
    inside one of these errors is known by its text only, an arbitrary string:
    [p] below.  Not modelled: the derived [Debug] texts and the text tonic gives
    a [Status]. *)
From Coq Require Import String.
From Verif Require Import Base OMap Json Types Util Db Proto Server.

Set Implicit Arguments.
Local Open Scope string_scope.

(** lib/src/errors.rs 123-132: [Display for ValidationError]. *)
Definition validation_text (v : verr) : string :=
  match v with
  | InvalidValue => "invalid value"
  | ValueTooLong => "value too long"
  | CannotIncrementUuid => "could not increment the UUID"
  | InnerQuery => "the given query combination cannot be nested"
  end.

(** lib/src/errors.rs 51-63: [Display for Error].  [p] is the text of the error
    inside [Datastore] and [Io]. *)
Definition error_text (e : error) (p : string) : string :=
  match e with
  | UuidTaken => "UUID already taken"
  | EDatastore => "error in the underlying datastore: " ++ p
  | EIo => "I/O error: " ++ p
  | NotIndexed => "query attempted on a property that isn't indexed"
  | Unsupported => "functionality not supported"
  | Invalid v => validation_text v
  | OperationOnQuery => "the operation cannot work with the given query"
  end.

(** lib/src/errors.rs 40-49: [source], by its text. *)
Definition error_source (e : error) (p : string) : option string :=
  match e with
  | EDatastore | EIo => Some p
  | Invalid v => Some (validation_text v)
  | _ => None
  end.

(** proto/src/converters.rs 34-44: [Display for ConversionError].
    [UnexpectedResponseType] is never made by the code, so [cerr] omits it. *)
Definition conversion_text (e : cerr) (p : string) : string :=
  match e with
  | CEJson => "json conversion failed: " ++ p
  | CEUuid => "uuid conversion failed: " ++ p
  | CEValidation v => "validation conversion failed: " ++ validation_text v
  | CENoneField name => "proto field '" ++ name ++ "' should not be none"
  end.

(** plugins/host/src/errors.rs 9-20: [Error] of a plugin. *)
Inductive plugin_error :=
| PlJson (p : string)
| PlIndraDB (e : error) (p : string)
| PlInvalidArgument (msg : string)
| PlOther (p : string).
(** plugins/host/src/errors.rs 33-42. *)
Definition plugin_text (e : plugin_error) : string :=
  match e with
  | PlJson p => "json error: " ++ p
  | PlIndraDB e p => "IndraDB error: " ++ error_text e p
  | PlInvalidArgument msg => msg
  | PlOther p => p
  end.

(** proto/src/server.rs 25-36, 304: the message of an [internal] status.  The
    text of tokio's [JoinError] for a task that panicked starts with the word
    task; [p] is the rest.  Server.v's plugins fail only with errors of the
    database ([?] on a transaction's method). *)
Definition reason_text (r : reason) (p : string) : string :=
  match r with
  | BecauseError e => error_text e p
  | BecausePanic => "task " ++ p
  | BecausePlugin e => plugin_text (PlIndraDB e p)
  end.

(** [tonic::Code], as far as the server uses it.  [COther] is what the transport
    chooses. *)
Inductive grpc_code := CodeInvalidArgument | CodeInternal | CodeNotFound | CodeOther.
Definition code (s : status) : grpc_code :=
  match s with
  | SInvalidArgument _ => CodeInvalidArgument
  | SInternal _ => CodeInternal
  | SNotFound => CodeNotFound
  | STransport => CodeOther
  end.
(** [Status::message]: server.rs 26, 30, 34, 304, 310. *)
Definition message (s : status) (p : string) : string :=
  match s with
  | SInvalidArgument e => conversion_text e p
  | SInternal r => reason_text r p
  | SNotFound => "unknown plugin"
  | STransport => p
  end.
