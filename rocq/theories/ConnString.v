(** Connection strings: net/url.Parse and URL.Query, as conn.go:119-159 uses them.

    net/url is not part of the repository; this is its documented behaviour (RFC 3986 as read by
    Go 1.17 and later: user names and ports are checked, a semicolon does not separate settings).
    Errors are [None]: conn.go:123 refuses them all alike. *)
From Coq Require Import ZArith List Bool.
From Verif Require Import GoPrims Misc.
Import ListNotations.
Open Scope Z_scope.

Definition letter (c : Z) : bool := (97 <=? c) && (c <=? 122) || (65 <=? c) && (c <=? 90).
Definition digit (c : Z) : bool := (48 <=? c) && (c <=? 57).
Definition among (l : list Z) (c : Z) : bool := existsb (Z.eqb c) l.
Definition hexval (c : Z) : option Z :=
  if digit c then Some (c - 48)
  else if (97 <=? c) && (c <=? 102) then Some (c - 87)
  else if (65 <=? c) && (c <=? 70) then Some (c - 55)
  else None.

(** strings.Cut at the first [c], and at the last. *)
Fixpoint cut (c : Z) (s : str) : str * option str :=
  match s with
  | [] => ([], None)
  | x :: r => if x =? c then ([], Some r) else let '(a, b) := cut c r in (x :: a, b)
  end.
Fixpoint cut_last (c : Z) (s : str) : option (str * str) :=
  match s with
  | [] => None
  | x :: r =>
      match cut_last c r with
      | Some (a, b) => Some (x :: a, b)
      | None => if x =? c then Some ([], r) else None
      end
  end.
(** strings.Split *)
Fixpoint split (c : Z) (s : str) : list str :=
  match s with
  | [] => [[]]
  | x :: r =>
      if x =? c then [] :: split c r
      else match split c r with p :: ps => (x :: p) :: ps | [] => [[x]] end
  end.

(** unescape: percent escapes; in settings [plus] a + is a space *)
Fixpoint unescape (plus : bool) (s : str) : option str :=
  match s with
  | [] => Some []
  | c :: r =>
      if c =? 37 then
        match r with
        | a :: b :: r' =>
            match hexval a, hexval b with
            | Some x, Some y => match unescape plus r' with Some t => Some (16 * x + y :: t) | None => None end
            | _, _ => None
            end
        | _ => None
        end
      else match unescape plus r with Some t => Some ((if plus && (c =? 43) then 32 else c) :: t) | None => None end
  end.

(** Control characters are refused anywhere before the fragment. *)
Definition control_char (c : Z) : bool := (c <? 32) || (c =? 127).
(** getScheme; no scheme at all is refused by conn.go:125 *)
Fixpoint get_scheme (first : bool) (s : str) : option (str * str) :=
  match s with
  | [] => None
  | c :: r =>
      if letter c || negb first && (digit c || among [43; 45; 46] c)
      then match get_scheme false r with Some (a, b) => Some (c :: a, b) | None => None end
      else if (c =? 58) && negb first then Some ([], r) else None
  end.
(** validUserinfo: - . _ : ~ ! $ & ' ( ) * + , ; = % @ *)
Definition user_char (c : Z) : bool := letter c || digit c || among [45; 46; 95; 58; 126; 33; 36; 38; 39; 40; 41; 42; 43; 44; 59; 61; 37; 64] c.
(** shouldEscape for hosts: - _ . ~ ! $ & ' ( ) * + , ; = : [ ] < > and the double quote *)
Definition host_table (c : Z) : bool := letter c || digit c || among [45; 95; 46; 126; 33; 36; 38; 39; 40; 41; 42; 43; 44; 59; 61; 58; 91; 93; 60; 62; 34] c.
(** the checks of unescape for hosts, and for the zone of an address *)
Fixpoint host_ok (zone : bool) (s : str) : bool :=
  match s with
  | [] => true
  | c :: r =>
      if c =? 37 then
        match r with
        | a :: b :: r' =>
            match hexval a, hexval b with
            | Some x, Some y =>
                ((a =? 50) && (b =? 53) || (if zone then (16 * x + y =? 32) || host_table (16 * x + y) else 8 <=? x)) && host_ok zone r'
            | _, _ => false
            end
        | _ => false
        end
      else ((128 <=? c) || host_table c) && host_ok zone r
  end.
Definition unescape_host (zone : bool) (s : str) : option str := if host_ok zone s then unescape false s else None.
(** validOptionalPort *)
Definition port_ok (s : str) : bool := match s with [] => true | c :: d => (c =? 58) && forallb digit d end.
(** the position of %25 *)
Fixpoint split_zone (s : str) : option (str * str) :=
  match s with
  | [] => None
  | c :: r =>
      if str_eqb (firstn 3 s) [37; 50; 53] then Some ([], s)
      else match split_zone r with Some (a, b) => Some (c :: a, b) | None => None end
  end.
(** parseHost *)
Definition parse_host (h : str) : option str :=
  if match h with c :: _ => c =? 91 | [] => false end then
      match cut_last 93 h with
      | None => None
      | Some (addr, port) =>
          if negb (port_ok port) then None
          else match split_zone addr with
               | None => unescape_host false h
               | Some (a, z) =>
                   match unescape_host false a, unescape_host true z, unescape_host false (93 :: port) with
                   | Some a, Some z, Some p => Some (a ++ z ++ p)
                   | _, _, _ => None
                   end
               end
      end
  else if match cut_last 58 h with Some (_, p) => port_ok (58 :: p) | None => true end then unescape_host false h else None.
(** parseAuthority: user, password, host *)
Definition parse_authority (a : str) : option (option (str * option str) * str) :=
  match cut_last 64 a with
  | None => match parse_host a with Some h => Some (None, h) | None => None end
  | Some (ui, h) =>
      match parse_host h with
      | None => None
      | Some h =>
          if negb (forallb user_char ui) then None
          else let '(n, p) := cut 58 ui in
               match unescape false n, p with
               | Some n, None => Some (Some (n, None), h)
               | Some n, Some p => match unescape false p with Some p => Some (Some (n, Some p), h) | None => None end
               | None, _ => None
               end
      end
  end.
(** ParseQuery, whose error URL.Query drops: a setting that is not well formed is left out. *)
Definition setting (p : str) : list (str * str) :=
  if among p 59 then []
  else match p with
       | [] => []
       | _ => let '(k, v) := cut 61 p in
              match unescape true k, unescape true (match v with Some v => v | None => [] end) with
              | Some k, Some v => [(k, v)]
              | _, _ => []
              end
       end.
Definition settings (q : str) : list (str * str) := flat_map setting (split 38 q).
(** what comes after the scheme: // with an authority, a path, or something opaque; the path only has to
    be well formed *)
Definition parse_rest (rest : str) : option (option (str * option str) * str) :=
  match rest with
  | [] => Some (None, [])
  | a :: r1 =>
      if negb (a =? 47) then Some (None, [])
      else
        let path p := match unescape false p with Some _ => true | None => false end in
        match r1 with
        | [] => Some (None, [])
        | b :: r =>
            if b =? 47 then
              let '(auth, p) := cut 47 r in
              if path (match p with Some p => p | None => [] end) then parse_authority auth else None
            else if path r1 then Some (None, []) else None
        end
  end.
(** Parse.  The scheme is kept as written (Parse and conn.go:125 both lower it). *)
Definition url_parse (s : str) : option urlinfo :=
  let '(u, frag) := cut 35 s in
  if existsb control_char u then None
  else match get_scheme true u, match frag with None => Some [] | Some f => unescape false f end with
  | Some (sch, rest), Some _ =>
      let '(rest, q) := cut 63 rest in
      match parse_rest rest with
      | Some (user, host) => Some {| u_scheme := sch; u_user := user; u_host := host; u_query := settings (match q with Some q => q | None => [] end) |}
      | None => None
      end
  | _, _ => None
  end.
(** conn.go:119-159 and 172-198 on the string itself *)
Definition configure (s : str) : pres := match url_parse s with Some u => parse_url u | None => PErr end.
Definition dial_string (fs : fsys) (s : str) : dial := match url_parse s with Some u => create_conn fs u | None => DialNothing end.
