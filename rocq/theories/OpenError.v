(** The text of the error that Open returns when the connection string is refused: errors/errors.go:65-80 on the
    errors of conn.go:119-146, wrapped at conn.go:104 and 177. *)
From Coq Require Import ZArith String List Bool.
From Verif Require Import GoPrims Misc ConnString PropsNames.
Import ListNotations.
Open Scope list_scope.
Open Scope Z_scope.

Section Text.
(** strconv.Quote (from Go 1.14 on; nothing before); the reason that net/url gives; the stack trace; the text for strings without a scheme (whether
    net/url or conn.go:126 refuses them is not modelled) *)
Variables (quote reason : str -> str) (stack : str) (schemeless : str -> str).

(** net/url: Error of url.Error, with the string up to the fragment, or all of it if only the fragment is wrong *)
Definition shown_url (s : str) : str :=
  match url_parse (fst (cut 35 s)) with
  | None => fst (cut 35 s)
  | Some _ => s
  end.
Definition url_error (s : str) : str := text "parse " ++ quote (shown_url s) ++ text ": " ++ reason s.

(** conn.go:119-146: the message of the innermost driver error, with the foreign error behind it *)
Definition parse_failure (s : str) : option str :=
  match url_parse s with
  | None =>
      match get_scheme true (fst (cut 35 s)) with
      | None => Some (schemeless s)
      | Some _ => Some (text "An error occurred parsing bolt URL" ++ [10] ++ text "Internal Error(*url.Error):" ++ url_error s)
      end
  | Some u =>
      if negb (str_eqb (to_lower (u_scheme u)) s_bolt)
      then Some (text "Unsupported connection string scheme: " ++ to_lower (u_scheme u) ++ text ". Driver only supports 'bolt' scheme.")
      else match u_user u with
           | Some (_, None) => Some (text "Must specify password when passing user")
           | _ =>
               if str_eqb (qget s_timeout u) [] then None
               else match atoi (qget s_timeout u) with
                    | None => Some (text "Invalid format for timeout: " ++ qget s_timeout u ++ text ".  Must be integer")
                    | Some _ => None
                    end
           end
  end.
(** conn.go:104, 177 and errors.go:65-80: each inner error on a new line, one tab further in *)
Definition open_error (s : str) : option str :=
  match parse_failure s with
  | None => None
  | Some m =>
      Some (text "An error occurred initializing connection" ++ [10] ++
            [9] ++ text "An error occurred parsing the conn URL" ++ [10] ++
            [9; 9] ++ m ++ [10; 10] ++ text " Stack Trace:" ++ [10; 10] ++ stack)
  end.
End Text.
