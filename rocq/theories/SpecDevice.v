(** * A file whose operations are scheduled by somebody else.
    What the next calls of [read] or [write] do is given by a plan; after it, every call does all that is asked.
    Every finite history of short counts, interruptions and errors is a plan. *)
From Verif Require Import Machine MStream MDevice.

Inductive event :=
| Piece (k : N)          (** the next call handles at most [k + 1] bytes *)
| Interrupt              (** the next call is interrupted and does nothing *)
| Fault (e : io_error).  (** the next call fails, and does nothing *)

(** [content]: what is still to be read, or what has been written. *)
Record file := { content : list N; plan : list event }.

Definition file_read : reader file := fun n f =>
  match plan f with
  | [] => Ok (Done (firstnN n (content f)), {| content := skipnN n (content f); plan := [] |})
  | Piece k :: p => Ok (Done (firstnN (N.min n (k + 1)) (content f)),
                        {| content := skipnN (N.min n (k + 1)) (content f); plan := p |})
  | Interrupt :: p => Ok (Interrupted, {| content := content f; plan := p |})
  | Fault e :: p => Ok (Failed e, {| content := content f; plan := p |})
  end.

Definition file_write : writer file := fun buf f =>
  match plan f with
  | [] => Ok (Done (lengthN buf), {| content := content f ++ buf; plan := [] |})
  | Piece k :: p => Ok (Done (N.min (lengthN buf) (k + 1)),
                        {| content := content f ++ firstnN (k + 1) buf; plan := p |})
  | Interrupt :: p => Ok (Interrupted, {| content := content f; plan := p |})
  | Fault e :: p => Ok (Failed e, {| content := content f; plan := p |})
  end.

(** No error in the plan *)
Definition faultless (p : list event) : Prop := forall e, ~ In (Fault e) p.
(** The first error was [e], and it was the last thing that happened. *)
Definition failed_with (e : io_error) (q : list event) : Prop := exists q0, q = q0 ++ [Fault e] /\ faultless q0.
