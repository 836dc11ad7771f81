(** The lines written to the log: util.go sprintByteHex, and the log calls made while a connection is opened. *)
From Coq Require Import ZArith List Bool.
From Verif Require Import GoPrims Value Encoder Decoder Misc.
Import ListNotations.
Open Scope Z_scope.

(** Pieces of text (bytes) *)
Definition s_tab : str := [9].
Definition s_nl : str := [10].
Definition s_sp : str := [32].

(** fmt "%x" of a byte: lower case, no leading zero *)
Definition hexdigit (d : Z) : Z := if d <? 10 then 48 + d else 87 + d.
Definition hexbyte (b : Z) : str := if b <? 16 then [hexdigit b] else [hexdigit (b / 16); hexdigit (b mod 16)].

(** util.go:13-28 sprintByteHex; [i] is the index of the next byte *)
Fixpoint hex_from (i : Z) (b : bytes) : str :=
  match b with
  | [] => []
  | x :: b' =>
      hexbyte x ++
      (if (i + 1) mod 16 =? 0 then s_nl ++ s_nl ++ s_tab
       else if (i + 1) mod 4 =? 0 then s_sp ++ s_sp
       else s_sp) ++ hex_from (i + 1) b'
  end.
Definition sprint_byte_hex (b : bytes) : str := s_tab ++ hex_from 0 b ++ s_nl.

(** fmt "%d" of a number that is not negative.  Fuel: one unit for each digit. *)
Fixpoint show_nat (fuel : nat) (z : Z) : str :=
  match fuel with
  | O => []
  | S fuel => if z <? 10 then [48 + z] else show_nat fuel (z / 10) ++ [48 + z mod 10]
  end.
Definition show_num (z : Z) : str := show_nat (S (Z.to_nat (Z.log2 z))) z.

(** A call of a log function with its text.  Whether it prints is [log_prints]. *)
Definition entry : Type := logkind * str.

Definition s_read : str := [82; 101; 97; 100; 32].                                                       (* "Read " *)
Definition s_bytes_from : str :=                                          (* " bytes from stream:\n\n" *)
  [32; 98; 121; 116; 101; 115; 32; 102; 114; 111; 109; 32; 115; 116; 114; 101; 97; 109; 58; 10; 10].
Definition s_wrote : str := [87; 114; 111; 116; 101; 32].                                                (* "Wrote " *)
Definition s_of : str := [32; 111; 102; 32].                                                             (* " of " *)
Definition s_bytes_to : str :=                                            (* " bytes to stream:\n\n" *)
  [32; 98; 121; 116; 101; 115; 32; 116; 111; 32; 115; 116; 114; 101; 97; 109; 58; 10; 10].

(** conn.go:328-330 in Read: [buf] is the caller's buffer after the call, all of it, [n] the number of bytes read *)
Definition read_line (buf : bytes) (n : Z) : entry :=
  (LTrace, s_read ++ show_num n ++ s_bytes_from ++ sprint_byte_hex buf ++ s_nl).
(** conn.go:348-350 in Write: [b] is what was to be written, of which [n] bytes were; the numbers are interchanged *)
Definition write_line (b : bytes) (n : Z) : entry :=
  (LTrace, s_wrote ++ show_num (zlen b) ++ s_of ++ show_num n ++ s_bytes_to ++ sprint_byte_hex (ztake n b) ++ s_nl).

Section Open.
(** fmt of a time.Duration and of a message, and the texts of the lines of parseURL *)
Variables (show_duration : Z -> str) (show_message : goval -> str) (label : Z -> str).

Definition show_bool (b : bool) : str := if b then [116; 114; 117; 101] else [102; 97; 108; 115; 101].

(** conn.go:159-167 in parseURL.  The variables user and password (conn.go:120, 121) are never assigned: the lines show
    empty texts. *)
Definition parse_lines (u : urlinfo) (c : connconf) : list entry :=
  map (fun p => (LTrace, label (fst p) ++ snd p ++ s_nl))
    [(159, u_host u); (160, show_duration (cf_timeout c)); (161, []); (162, []); (163, show_bool (cf_tls c));
     (164, show_bool (cf_noverify c)); (165, cf_cert c); (166, cf_key c); (167, cf_ca c)].

Definition s_init : str :=                                    (* "Sending INIT Message. ClientID: " *)
  [83; 101; 110; 100; 105; 110; 103; 32; 73; 78; 73; 84; 32; 77; 101; 115; 115; 97; 103; 101; 46; 32;
   67; 108; 105; 101; 110; 116; 73; 68; 58; 32].
Definition s_user : str := [32; 85; 115; 101; 114; 58; 32].                                              (* " User: " *)
Definition s_consuming : str := [67; 111; 110; 115; 117; 109; 105; 110; 103].   (* "Consuming ..." (the beginning) *)
Definition s_consumed : str := [67; 111; 110; 115; 117; 109; 101; 100; 32].     (* "Consumed ..." (the beginning) *)
Definition s_success : str := [83; 117; 99; 99; 101; 115; 115].                 (* "Successfully ..." (the beginning) *)

(** The log calls while a connection is opened, conn.go:263-315, when everything goes well: parseURL, the handshake
    (conn.go:240, 249), sendInit (conn.go:613-622) and consume (conn.go:551-573).  [version] and [reads] are the buffers
    of the Reads with the numbers of bytes read, [resp] the message they make. *)
Definition open_lines (u : urlinfo) (c : connconf) (cs : Z) (version : bytes * Z) (reads : list (bytes * Z)) (resp : goval)
  : list entry :=
  parse_lines u c ++
  [write_line handshake_bytes 20; read_line (fst version) (snd version);
   (LInfo, s_init ++ client_id ++ s_user ++ cf_user c ++ s_nl)] ++
  map (fun w => write_line w (zlen w)) (fst (encode cs (init_message client_id (cf_user c) (cf_password c)))) ++
  (LInfo, s_consuming) ::
  map (fun r => read_line (fst r) (snd r)) reads ++
  [(LTrace, s_consumed ++ show_message resp); (LInfo, s_success ++ show_message resp)].
End Open.

(** What a log at level [l] shows of some calls, log.go:53-92 *)
Definition shown (l : level) (es : list entry) : list entry := filter (fun e => log_prints l (fst e)) es.
