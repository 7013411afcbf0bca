(** ginko_ls/src/server.rs: the configuration sent by the client *)
From Verif Require Export Server.

(** serde_json::Value; a number is left as its spelling *)
Inductive json :=
| JNull | JBool (b : bool) | JNumber (s : str) | JString (s : str)
| JArray (l : list json) | JObject (m : list (str * json)).

(** serde: Vec<String> from a value *)
Fixpoint json_strings (l : list json) : option (list str) :=
  match l with
  | [] => Some []
  | JString s :: r => option_map (cons s) (json_strings r)
  | _ => None
  end.
Definition vec_string (v : json) : option (list str) :=
  match v with JArray l => json_strings l | _ => None end.

(** server.rs:31-34 the derived [Deserialize] of [ProjectConfig]: an object with the field [includes] (other fields are
    ignored) or an array of the only field *)
Definition parse_config (v : json) : option (list str) :=
  match v with
  | JObject m => match m_get str_eq_dec (bs "includes") m with Some x => vec_string x | None => None end
  | JArray [x] => vec_string x
  | _ => None
  end.
(** server.rs:36-40 [ProjectConfig::from_value]; the default has no includes *)
Definition config_includes (v : json) : list str :=
  match parse_config v with Some l => l | None => [] end.

(** server.rs:110-113 [initialize]; the default value is null *)
Definition on_initialize (fs : fsys) (options : option json) (sv : server) : server :=
  initialize fs (config_includes (match options with Some v => v | None => JNull end)) sv.
(** server.rs:129-133 [did_change_configuration] *)
Definition on_configuration (ok : list fpath -> list fpath) (fs : fsys) (settings : json) (sv : server) : outcome server :=
  did_change_configuration ok fs (config_includes settings) sv.
