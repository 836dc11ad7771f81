(** Model of recorder.go. *)
From Coq Require Import ZArith List Bool.
From Verif Require Import GoPrims.
Import ListNotations.
Open Scope Z_scope.

(** recorder.go:277-283 Event; the timestamp is not modelled, the error only by
    its presence.  For the JSON file between recording and replay see [load]. *)
Record event := { ev_data : bytes; ev_write : bool; ev_done : bool; ev_err : bool }.
Definition new_event (w : bool) : event := {| ev_data := []; ev_write := w; ev_done := false; ev_err := false |}.

(** The last two bytes of [data]; [None] is the index panic of
    recorder.go:163 on a single byte. *)
Definition last_two (data : bytes) : option (Z * Z) :=
  match rev data with
  | b :: a :: _ => Some (a, b)
  | _ => None
  end.

(** recorder.go:155-166 record; [None]: panic *)
Definition add_data (data : bytes) (e : event) : option event :=
  match last_two data with
  | None => None
  | Some (a, b) =>
      Some {| ev_data := ev_data e ++ data; ev_write := ev_write e;
              ev_done := ev_done e || ((a =? 0) && (b =? 0)); ev_err := ev_err e |}
  end.
(** The event to extend: the last one, or a new one (156-160). Events are kept
    oldest first; [open_event] gives the ones before it and the event itself. *)
Definition open_event (w : bool) (evs : list event) : list event * event :=
  match rev evs with
  | [] => ([], new_event w)
  | e :: before =>
      if ev_done e || negb (Bool.eqb (ev_write e) w) then (evs, new_event w) else (rev before, e)
  end.
Definition record (data : bytes) (w : bool) (evs : list event) : option (list event) :=
  let '(before, e) := open_event w evs in
  match add_data data e with
  | None => None
  | Some e' => Some (before ++ [e'])
  end.
(** recorder.go:168-177 recordErr *)
Definition record_err (w : bool) (evs : list event) : list event :=
  let '(before, e) := open_event w evs in
  before ++ [{| ev_data := ev_data e; ev_write := ev_write e; ev_done := true; ev_err := true |}].

(** One call on the recorder while recording, with what the connection did:
    a Read with a buffer of [n] bytes that got [got], a Write of [b] of which
    [n] bytes were taken; [fail]: the connection returned an error. *)
Inductive rop := ORead (n : Z) (got : bytes) (fail : bool) | OWrite (b : bytes) (n : Z) (fail : bool).

(** recorder.go:58-70 and 119-131, with r.Conn set *)
Definition rec_call (evs : list event) (o : rop) : option (list event) :=
  let '(data, w, fail) := match o with
                          | ORead _ got fail => (got, false, fail)
                          | OWrite b n fail => (ztake n b, true, fail)
                          end in
  match (if 0 <? zlen data then record data w evs else Some evs) with
  | None => None
  | Some evs' => Some (if fail then record_err w evs' else evs')
  end.
Fixpoint rec_session (evs : list event) (os : list rop) : option (list event) :=
  match os with
  | [] => Some evs
  | o :: os' => match rec_call evs o with None => None | Some evs' => rec_session evs' os' end
  end.

(** ** Replay *)
Record player := { pl_events : list event; pl_cur : nat }.
(** recorder.go:179-194 writeRecording and load, recorder.go:28-33: encoding/json writes a
    non-nil error as an object or a string and cannot read either back into a variable of
    type error, so the recording cannot be loaded ([None]; newRecorder ends the process).
    The other fields come back as they were. *)
Definition load (evs : list event) : option player :=
  if existsb ev_err evs then None else Some {| pl_events := evs; pl_cur := 0 |}.
Inductive pop := PRead (n : Z) | PWrite (b : bytes).
(** bytes delivered (for a write: none), count returned, failed? *)
Record pout := { po_data : bytes; po_n : Z; po_fail : bool }.

Fixpoint set_nth (i : nat) (e : event) (l : list event) : list event :=
  match i, l with
  | _, [] => []
  | O, _ :: l' => e :: l'
  | S i', x :: l' => x :: set_nth i' e l'
  end.

(** recorder.go:72-92 and 133-152: take up to [n] bytes of the current event *)
Definition play_call (p : player) (o : pop) : pout * player :=
  match nth_error (pl_events p) (pl_cur p) with
  | None => ({| po_data := []; po_n := 0; po_fail := true |}, p)
  | Some e =>
      let '(n, w) := match o with PRead n => (n, false) | PWrite b => (zlen b, true) end in
      if negb (Bool.eqb (ev_write e) w) then ({| po_data := []; po_n := 0; po_fail := true |}, p)
      else
        let taken := ztake n (ev_data e) in
        let e' := {| ev_data := zdrop n (ev_data e); ev_write := ev_write e;
                     ev_done := ev_done e; ev_err := ev_err e |} in
        let evs := set_nth (pl_cur p) e' (pl_events p) in
        let data := if w then [] else taken in
        if zlen taken <? n then
          ({| po_data := data; po_n := zlen taken; po_fail := true |}, {| pl_events := evs; pl_cur := pl_cur p |})
        else
          ({| po_data := data; po_n := n; po_fail := false |},
           {| pl_events := evs; pl_cur := if zlen (ev_data e') =? 0 then S (pl_cur p) else pl_cur p |})
  end.
Fixpoint play (p : player) (os : list pop) : list pout * player :=
  match os with
  | [] => ([], p)
  | o :: os' =>
      let '(r, p1) := play_call p o in
      let '(rs, p2) := play p1 os' in (r :: rs, p2)
  end.
(** recorder.go:103-116 Close while replaying: true = nil error *)
Definition play_close (p : player) : bool :=
  match pl_events p with
  | [] => true
  | _ => Nat.eqb (pl_cur p) (length (pl_events p)) &&
         (zlen (ev_data (last (pl_events p) (new_event false))) =? 0)
  end.
