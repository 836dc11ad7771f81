(** Model of errors/errors.go and of the error values of the driver. *)
From Coq Require Import ZArith List Bool.
From Verif Require Import GoPrims Value.
Import ListNotations.
Open Scope Z_scope.

(** Where a driver error was created. *)
Inductive gfile := FConn | FStmt | FRows | FTx | FDriver | FEnc | FDec | FUtil.

(** Go [error] values.
    - [EDrv f l w] is a *errors.Error made at file [f], line [l] by New ([w] =
      None) or Wrap.  The message text and the stack trace are not kept: no
      function of the driver reads them back.
    - [EBadConn] is driver.ErrBadConn, [EEOF] is io.EOF,
    - [EFailMsg md] is a messages.FailureMessage used as an error
      (messages/failure.go:32-36),
    - [EOther n] any other error value of the environment. *)
Inductive gerr :=
| EDrv (f : gfile) (line : Z) (w : option gerr)
| EBadConn
| EEOF
| EFailMsg (md : list (str * goval))
| EOther (n : Z).

(** errors.go:18-24 New *)
Definition enew (f : gfile) (line : Z) : gerr := EDrv f line None.
(** errors.go:27-40 Wrap; wrapping nil gives an error without inner error *)
Definition ewrap (f : gfile) (line : Z) (e : gerr) : gerr := EDrv f line (Some e).
Definition ewrap_opt (f : gfile) (line : Z) (e : option gerr) : gerr := EDrv f line e.

(** errors.go:48-50 Inner, on a driver error *)
Definition inner (e : gerr) : option gerr := match e with EDrv _ _ w => w | _ => None end.

(** errors.go:53-63 InnerMost.  On errors that are not driver errors there is no
    such method; here it returns the error itself, which is what a caller who
    checks the type first would use. *)
Fixpoint innermost (e : gerr) : gerr :=
  match e with
  | EDrv _ _ None => e
  | EDrv _ _ (Some w) =>
      match w with
      | EDrv _ _ _ => innermost w
      | _ => w
      end
  | _ => e
  end.

(** errors.go:42-45, 65-80 Error(): the rendering, with the text of each level,
    the text of the foreign error and the stack trace left open.  New and Wrap of
    anything but a driver error attach a stack trace (errors.go:21, 38). *)
Inductive eline := LMsg (tabs : Z) (f : gfile) (line : Z) | LInternal (e : gerr) | LStack (f : gfile) (line : Z).
Fixpoint render (level : Z) (e : gerr) : list eline :=
  match e with
  | EDrv f l w =>
      LMsg level f l ::
      match w with
      | None => [LStack f l]
      | Some (EDrv _ _ _ as e') => render (level + 1) e'
      | Some e' => [LInternal e'; LStack f l]
      end
  | _ => []
  end.
Definition error_string (e : gerr) : list eline := render 0 e.
