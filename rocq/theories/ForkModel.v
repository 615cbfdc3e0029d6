(** Many transcripts at once, and copies of them (/repo/fiat-shamir/transcript.go:31-34): a Transcript is a
    struct with a slice in it, so `t2 := *t1` copies the slice header and not the array behind it.

    Heaps, headers and append are those of FSModel.v. A program is a list of calls on numbered transcript
    variables. *)
From Coq Require Import ZArith Bool String List.
From Verif Require Import FSModel.
Import ListNotations.
Open Scope nat_scope.

Inductive call :=
| Init (l : list string)               (* a new variable: InitTranscript(l, _), transcript.go:45-51 *)
| Copy (k : nat)                       (* a new variable: *t_k *)
| Add (k : nat) (x : list string)      (* t_k.AppendSlice(x), 59-61; one string: t_k.Append, 54-56 *)
| Draw (k : nat).                      (* t_k.Get...Challenge...(), 64-85: hash the info, append the result *)

Section Fork.
(** the capacity append leaves in excess, and the challenge as a string (dec of the hash) *)
Variable grow : nat -> nat -> nat.
Variable challenge : list string -> string.

(** the heap and the slice header in each variable *)
Record fstate := FSt { f_heap : heap; f_vars : list header }.
Definition nil_slice : header := Hdr None 0.
Definition var (st : fstate) (k : nat) : header := nth k (f_vars st) nil_slice.
Definition put (l : list header) (k : nat) (s : header) : list header := firstn k l ++ s :: skipn (S k) l.
Definition info_of (st : fstate) (k : nat) : list string := view (f_heap st) (var st k).

Definition add (st : fstate) (k : nat) (x : list string) : fstate :=
  let (h, s) := go_append grow (f_heap st) (var st k) x in FSt h (put (f_vars st) k s).
(** a call on a variable that does not exist does nothing *)
Definition fstep (st : fstate) (c : call) : fstate :=
  match c with
  | Init l => let (h, s) := go_append grow (f_heap st) nil_slice l in FSt h (f_vars st ++ [s])
  | Copy k => if k <? length (f_vars st) then FSt (f_heap st) (f_vars st ++ [var st k]) else st
  | Add k x => if k <? length (f_vars st) then add st k x else st
  | Draw k => if k <? length (f_vars st) then add st k [challenge (info_of st k)] else st
  end.
Definition frun (st : fstate) (cs : list call) : fstate := fold_left fstep cs st.
End Fork.
