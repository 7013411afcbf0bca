(** ginko_ls/src/main.rs: the start of the language server *)
From Verif Require Export Config.

(** main.rs:6-11 [Args]; clap's own parsing of the command line is not modelled *)
Record ls_args := mkLsArgs { la_include : option (list str) }.
(** main.rs:14-26: the arguments are parsed and dropped; the service starts with server.rs:22-28 [Backend::new] *)
Definition ls_start (args : ls_args) : server := server_new.
