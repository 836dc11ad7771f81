(** Models of the small pieces: result.go, rows.go Columns, log/log.go,
    conn.go parseURL/tlsConfig/handShake, messages/init.go, util.go. *)
From Coq Require Import ZArith List Bool.
From Verif Require Import GoPrims Value Encoder Decoder Errors.
Import ListNotations.
Open Scope Z_scope.

(** Go string literals as byte lists (ASCII). *)
Definition s_stats : str := [115; 116; 97; 116; 115].                      (* "stats" *)
Definition s_nodes_created : str :=                                         (* "nodes-created" *)
  [110; 111; 100; 101; 115; 45; 99; 114; 101; 97; 116; 101; 100].
Definition s_rels_created : str :=                                          (* "relationships-created" *)
  [114; 101; 108; 97; 116; 105; 111; 110; 115; 104; 105; 112; 115; 45; 99; 114; 101; 97; 116; 101; 100].
Definition s_nodes_deleted : str :=                                         (* "nodes-deleted" *)
  [110; 111; 100; 101; 115; 45; 100; 101; 108; 101; 116; 101; 100].
Definition s_rels_deleted : str :=                                          (* "relationships-deleted" *)
  [114; 101; 108; 97; 116; 105; 111; 110; 115; 104; 105; 112; 115; 45; 100; 101; 108; 101; 116; 101; 100].
Definition s_fields : str := [102; 105; 101; 108; 100; 115].               (* "fields" *)

(** ** result.go:41-74 RowsAffected *)
Inductive rares := RAOk (n : Z) | RAErr | RAPanic.
(** [x, ok := stats[k]; if ok { acc += x.(int64) }], result.go:53-71; [None] is
    the panic of the type assertion. *)
Definition ra_add (stats : list (str * goval)) (k : str) (acc : option Z) : option Z :=
  match acc with
  | None => None
  | Some n =>
      match mget k stats with
      | None => Some n
      | Some (VInt KInt64 z) => Some (wraps 64 (n + z))
      | Some _ => None
      end
  end.
Definition rows_affected (metadata : list (str * goval)) : rares :=
  match mget s_stats metadata with
  | None => RAOk 0
  | Some (VMap stats) =>
      match ra_add stats s_rels_deleted (ra_add stats s_nodes_deleted
              (ra_add stats s_rels_created (ra_add stats s_nodes_created (Some 0)))) with
      | Some n => RAOk n
      | None => RAPanic
      end
  | Some _ => RAErr
  end.
(** result.go:31-34 LastInsertId *)
Definition last_insert_id (metadata : list (str * goval)) : Z := -1.

(** ** rows.go:93-113 Columns *)
Fixpoint all_strings (l : list goval) : option (list str) :=
  match l with
  | [] => Some []
  | VStr s :: l' => match all_strings l' with Some r => Some (s :: r) | None => None end
  | _ :: _ => None
  end.
Definition columns (metadata : list (str * goval)) : list str :=
  match mget s_fields metadata with
  | None => []
  | Some (VSlice fields) => match all_strings fields with Some r => r | None => [] end
  | Some _ => []
  end.

(** ** log/log.go *)
(** strings.ToLower on bytes: ASCII letters, and the only two non-ASCII runes
    whose lower case is ASCII, U+0130 (C4 B0, to "i") and U+212A (E2 84 AA, to
    "k").  Other non-ASCII bytes are kept; Go maps them to non-ASCII runes, which
    no comparison below can tell apart. *)
Fixpoint to_lower (s : str) : str :=
  match s with
  | 0xC4 :: 0xB0 :: r => 105 :: to_lower r
  | 0xE2 :: 0x84 :: 0xAA :: r => 107 :: to_lower r
  | c :: r => (if (65 <=? c) && (c <=? 90) then c + 32 else c) :: to_lower r
  | [] => []
  end.
Inductive level := NoneLevel | ErrorLevel | InfoLevel | TraceLevel.   (* log.go:12-21 *)
Definition level_num (l : level) : Z :=
  match l with NoneLevel => 0 | ErrorLevel => 1 | InfoLevel => 2 | TraceLevel => 3 end.
Definition s_trace : str := [116; 114; 97; 99; 101].
Definition s_info : str := [105; 110; 102; 111].
Definition s_error : str := [101; 114; 114; 111; 114].
(** log.go:34-45 SetLevel *)
Definition set_level (s : str) : level :=
  let s := to_lower s in
  if str_eqb s s_trace then TraceLevel
  else if str_eqb s s_info then InfoLevel
  else if str_eqb s s_error then ErrorLevel
  else NoneLevel.
(** log.go:53-92 Trace/Tracef, Info/Infof, Error/Errorf: does the call print? *)
Inductive logkind := LTrace | LInfo | LError.
Definition log_prints (l : level) (k : logkind) : bool :=
  match k with
  | LTrace => level_num TraceLevel <=? level_num l
  | LInfo => level_num InfoLevel <=? level_num l
  | LError => level_num ErrorLevel <=? level_num l
  end.

(** ** conn.go:119-170 parseURL *)
(** The result of net/url.Parse: [u_query] are the parameters in order;
    [Query().Get(k)] is the first value or "".  net/url itself is in ConnString.v. *)
Record urlinfo := { u_scheme : str; u_user : option (str * option str);
                    u_host : str; u_query : list (str * str) }.
Definition qget (k : str) (u : urlinfo) : str := match mget k (u_query u) with Some v => v | None => [] end.

Definition s_bolt : str := [98; 111; 108; 116].
Definition s_timeout : str := [116; 105; 109; 101; 111; 117; 116].
Definition s_tls : str := [116; 108; 115].
Definition s_cert : str := [116; 108; 115; 95; 99; 101; 114; 116; 95; 102; 105; 108; 101].          (* tls_cert_file *)
Definition s_key : str := [116; 108; 115; 95; 107; 101; 121; 95; 102; 105; 108; 101].               (* tls_key_file *)
Definition s_ca : str := [116; 108; 115; 95; 99; 97; 95; 99; 101; 114; 116; 95; 102; 105; 108; 101]. (* tls_ca_cert_file *)
Definition s_noverify : str := [116; 108; 115; 95; 110; 111; 95; 118; 101; 114; 105; 102; 121].     (* tls_no_verify *)

(** strconv.Atoi: optional sign, decimal digits, range of int (64 bit). *)
Fixpoint digits (acc : Z) (s : str) : option Z :=
  match s with
  | [] => Some acc
  | c :: r => if (48 <=? c) && (c <=? 57) then digits (acc * 10 + (c - 48)) r else None
  end.
Definition in_int (z : Z) : bool := (- 2 ^ 63 <=? z) && (z <? 2 ^ 63).
Definition atoi (s : str) : option Z :=
  let '(neg, d) := match s with
                   | 45 :: r => (true, r)
                   | 43 :: r => (false, r)
                   | _ => (false, s)
                   end in
  match d with
  | [] => None
  | _ => match digits 0 d with
         | Some n => let z := if neg : bool then - n else n in if in_int z then Some z else None
         | None => None
         end
  end.

(** strings.HasPrefix(strings.ToLower(v), "t") || v == "1", conn.go:149, 156 *)
Definition truthy (v : str) : bool :=
  match to_lower v with 116 :: _ => true | _ => str_eqb v [49] end.

Record connconf := { cf_user : str; cf_password : str; cf_timeout : Z (* nanoseconds *);
                     cf_tls : bool; cf_cert : str; cf_key : str; cf_ca : str; cf_noverify : bool }.
(** conn.go:87-94 createBoltConn: 60 s, no TLS *)
Definition conf0 : connconf :=
  {| cf_user := []; cf_password := []; cf_timeout := 60 * 10 ^ 9;
     cf_tls := false; cf_cert := []; cf_key := []; cf_ca := []; cf_noverify := false |}.

Inductive pres := POk (c : connconf) | PErr.
Definition parse_url (u : urlinfo) : pres :=
  if negb (str_eqb (to_lower (u_scheme u)) s_bolt) then PErr
  else
    match (match u_user u with
           | None => Some ([], [])
           | Some (name, Some pw) => Some (name, pw)
           | Some (_, None) => None
           end) with
    | None => PErr
    | Some (user, pw) =>
        match (if str_eqb (qget s_timeout u) [] then Some (cf_timeout conf0)
               else match atoi (qget s_timeout u) with
                    | None => None
                    | Some n => Some (wraps 64 (n * 10 ^ 9))   (* Duration arithmetic is int64 *)
                    end) with
        | None => PErr
        | Some t =>
            if truthy (qget s_tls u) then
              POk {| cf_user := user; cf_password := pw; cf_timeout := t; cf_tls := true;
                     cf_cert := qget s_cert u; cf_key := qget s_key u; cf_ca := qget s_ca u;
                     cf_noverify := truthy (qget s_noverify u) |}
            else
              POk {| cf_user := user; cf_password := pw; cf_timeout := t; cf_tls := false;
                     cf_cert := []; cf_key := []; cf_ca := []; cf_noverify := false |}
        end
    end.

(** ** conn.go:200-236 tlsConfig *)
(** The file system: does ioutil.ReadFile / tls.LoadX509KeyPair succeed? *)
Record fsys := { fs_read : str -> bool; fs_pair : str -> str -> bool }.
Record tlsconf := { tc_roots : option str; tc_cert : option (str * str); tc_skip : bool }.
Definition tls_config (fs : fsys) (c : connconf) : option tlsconf :=
  match (if str_eqb (cf_ca c) [] then Some None
         else if fs_read fs (cf_ca c) then Some (Some (cf_ca c)) else None) with
  | None => None
  | Some roots =>
      match (if str_eqb (cf_cert c) [] then Some None
             else if str_eqb (cf_key c) [] then None
             else if fs_pair fs (cf_cert c) (cf_key c) then Some (Some (cf_cert c, cf_key c)) else None) with
      | None => None
      | Some cert => Some {| tc_roots := roots; tc_cert := cert; tc_skip := cf_noverify c |}
      end
  end.

(** conn.go:172-198 createConn: what is dialled, if anything *)
Inductive dial := DialPlain (host : str) (timeout : Z) | DialTLS (host : str) (t : tlsconf) | DialNothing.
Definition create_conn (fs : fsys) (u : urlinfo) : dial :=
  match parse_url u with
  | PErr => DialNothing
  | POk c =>
      if cf_tls c then
        match tls_config fs c with
        | None => DialNothing
        | Some t => DialTLS (u_host u) t
        end
      else DialPlain (u_host u) (cf_timeout c)
  end.

(** ** messages/init.go:15-33 NewInitMessage, with the client id of driver.go:25 *)
Definition s_scheme : str := [115; 99; 104; 101; 109; 101].
Definition s_none : str := [110; 111; 110; 101].
Definition s_basic : str := [98; 97; 115; 105; 99].
Definition s_principal : str := [112; 114; 105; 110; 99; 105; 112; 97; 108].
Definition s_credentials : str := [99; 114; 101; 100; 101; 110; 116; 105; 97; 108; 115].
Definition client_id : str :=                                  (* "GolangNeo4jBolt/1.0" *)
  [71; 111; 108; 97; 110; 103; 78; 101; 111; 52; 106; 66; 111; 108; 116; 47; 49; 46; 48].
Definition init_message (client user password : str) : goval :=
  VInit client
    (if str_eqb user [] then [(s_scheme, VStr s_none)]
     else [(s_scheme, VStr s_basic); (s_principal, VStr user); (s_credentials, VStr password)]).

(** ** conn.go:238-261 handShake *)
Definition magic : bytes := [0x60; 0x60; 0xB0; 0x17].                                  (* driver.go:13 *)
Definition supported_versions : bytes := [0;0;0;1; 0;0;0;0; 0;0;0;0; 0;0;0;0].         (* driver.go:14-19 *)
Definition handshake_bytes : bytes := magic ++ supported_versions.                     (* driver.go:20 *)

(** What one call c.Write(handShake) does: bytes taken and whether it failed. *)
Record wcall := { wc_n : Z; wc_err : bool }.
(** One call c.Read(buf) on a reader, conn.go:320-337: bytes, error, rest. *)
Definition read_once (n : Z) (r : reader) : bytes * option gerr * reader :=
  match r with
  | [] => ([], Some EEOF, [])
  | RFail :: r' => ([], Some EBadConn, r')
  | RData l :: r' => if zlen l <=? n then (l, None, r') else (ztake n l, None, RData (zdrop n l) :: r')
  end.
(** Returns the error (None: handshake passed) and the remaining stream. *)
Definition handshake (w : wcall) (r : reader) : option gerr * reader :=
  if negb (wc_n w =? 20) then (if wc_err w then Some (ewrap FConn 244 EBadConn) else None, r)
  else
    let '(b, err, r') := read_once 4 r in
    if negb (zlen b =? 4) then (match err with Some e => Some (ewrap FConn 253 e) | None => None end, r')
    else if str_eqb b [0; 0; 0; 0] then (Some (enew FConn 257), r')
    else (None, r').

(** ** util.go:30-52 driverArgsToMap *)
(** A driver.Value: []byte or anything else database/sql allows. *)
Inductive darg := ABytes (b : bytes) | AOther.
Inductive ares := AOk (m : list (str * goval)) | AErr | APanic.
(** [for k, v := range m { output[k] = v }] *)
Definition mmerge {A} (out m : list (str * A)) : list (str * A) :=
  fold_left (fun o kv => mput (fst kv) (snd kv) o) m out.
Fixpoint args_to_map (mk : bool) (out : list (str * goval)) (args : list darg) : ares :=
  match args with
  | [] => AOk out
  | AOther :: _ => AErr
  | ABytes b :: args' =>
      match unmarshal mk b with
      | DVal (VMap m) => args_to_map mk (mmerge out m) args'
      | DVal _ => APanic                          (* m.(map[string]interface{}) *)
      | DFail _ => AErr
      | DCrash | DHang => APanic
      end
  end.
Definition driver_args (mk : bool) (args : list darg) : ares := args_to_map mk [] args.

(** ** rows.go:173-196 Next: conversion of one row into dest *)
Inductive dval := DVNil | DVBool (b : bool) | DVInt (z : Z) | DVFloat (bits : Z) | DVStr (s : str) | DVBytes (b : bytes).
Inductive cres := COk (d : dval) | CErr.
(** rows.go:179-191; driver.DefaultParameterConverter on the values the decoder
    can produce: nil, bool, int64, float64 and string pass, protocol message
    structs are refused. *)
Definition convert (v : goval) : cres :=
  match v with
  | VSlice _ | VMap _ | VNode _ _ _ | VPath _ _ _ | VRel _ _ _ _ _ | VURel _ _ _ =>
      match marshal v with
      | (b, None) => COk (DVBytes b)
      | (_, Some _) => CErr
      end
  | VNil => COk DVNil
  | VBool b => COk (DVBool b)
  | VInt KInt64 z => COk (DVInt z)
  | VF64 b => COk (DVFloat b)
  | VStr s => COk (DVStr s)
  | _ => CErr
  end.
(** The loop over the row with a destination of [n] cells: the cells written and
    how it ended.  dest[i] panics when the row is longer than dest. *)
Inductive nres := NDone | NErr | NPanic.
Fixpoint fill (n : Z) (row : list goval) : list dval * nres :=
  match row with
  | [] => ([], NDone)
  | v :: row' =>
      match convert v with
      | CErr => ([], if n <=? 0 then NPanic else NErr)  (* dest[i], err = ... panics first *)
      | COk d => if n <=? 0 then ([], NPanic)
                 else let '(ds, e) := fill (n - 1) row' in (d :: ds, e)
      end
  end.
