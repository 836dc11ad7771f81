(** The names the driver looks for and sends, spelled out: the metadata keys, the
    parameters of the connection string, the INIT message, log levels, transaction words. *)
From Coq Require Import ZArith List String Ascii.
From Verif Require Import GoPrims Value Errors Misc Session.
Import ListNotations.
Open Scope Z_scope.

(** The bytes of a text. *)
Fixpoint text (s : string) : str := match s with EmptyString => [] | String a r => Z.of_N (N_of_ascii a) :: text r end.
Open Scope string_scope.

(** result.go:38-75 *)
Theorem C22_names : s_stats = text "stats" /\ s_nodes_created = text "nodes-created" /\ s_rels_created = text "relationships-created" /\
  s_nodes_deleted = text "nodes-deleted" /\ s_rels_deleted = text "relationships-deleted".
Proof. repeat split. Qed.
Print Assumptions C22_names.
(** rows.go:94 *)
Theorem C50_names : s_fields = text "fields".
Proof. reflexivity. Qed.
Print Assumptions C50_names.
(** conn.go:125-157 *)
Theorem C23_names : s_bolt = text "bolt" /\ s_timeout = text "timeout" /\ s_tls = text "tls".
Proof. repeat split. Qed.
Print Assumptions C23_names.
Theorem C24_names : s_cert = text "tls_cert_file" /\ s_key = text "tls_key_file" /\ s_ca = text "tls_ca_cert_file" /\ s_noverify = text "tls_no_verify".
Proof. repeat split. Qed.
Print Assumptions C24_names.
(** The message that opens a session, driver.go:25, messages/init.go:15-33. *)
Theorem C24_init : forall user password, init_message client_id user password =
  VInit (text "GolangNeo4jBolt/1.0")
    match user with
    | [] => [(text "scheme", VStr (text "none"))]
    | _ => [(text "scheme", VStr (text "basic")); (text "principal", VStr user); (text "credentials", VStr password)]
    end.
Proof. intros [|a user] password; reflexivity. Qed.
Print Assumptions C24_init.
(** log/log.go:34-45 *)
Theorem C52_names : s_trace = text "trace" /\ s_info = text "info" /\ s_error = text "error".
Proof. repeat split. Qed.
Print Assumptions C52_names.
(** conn.go:519, tx.go:39, 74 *)
Theorem C37_words : s_begin = text "BEGIN" /\ s_commit = text "COMMIT" /\ s_rollback = text "ROLLBACK".
Proof. repeat split. Qed.
Print Assumptions C37_words.
