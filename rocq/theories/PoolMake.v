(** driver.go:95-121: making a pool.  [max] is Go's int; connections are made without dialling, so the
    connection string is not looked at and the error result is always nil. *)
From Coq Require Import ZArith List Bool.
From Verif Require Import Session Pool.
Import ListNotations.
Open Scope Z_scope.

(** What NewDriverPool and NewClosableDriverPool do: a pool; a panic; waiting for ever.
    Not modelled: a [max] for which the channel needs more memory than there is. *)
Inductive made := Made (s : pool) | MadePanics | MadeHangs.
(** driver.go:112-118: the loop; newPooledBoltConn (conn.go:110-115) cannot fail, the send waits for room *)
Fixpoint fill (k : nat) (s : pool) : option pool :=
  match k with
  | O => Some s
  | S k =>
      if (length (p_chan s) <? p_max s)%nat
      then fill k (with_chan (p_chan s ++ [length (p_heap s)]) (with_heap (p_heap s ++ [blank]) s))
      else None
  end.
(** driver.go:105-121 createDriverPool, with [n] goroutines; make(chan, max) panics when max < 0 *)
Definition create_pool (max : Z) (n : nat) : made :=
  if max <? 0 then MadePanics
  else match fill (Z.to_nat max) (Pool (Z.to_nat max) None false [] [] [] [] (repeat Idle n) [] [] []) with
       | Some s => Made s
       | None => MadeHangs
       end.
