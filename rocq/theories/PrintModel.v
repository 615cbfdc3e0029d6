(** The two printing functions whose text carries data: PrintTable (/repo/precompute/comfromtable.go:25-31) "for
    storage" and Transcript.Print (/repo/fiat-shamir/transcript.go:36-42). Standard output is a string; writing to
    it does not fail. The numbers in a table are not nil. *)
From Coq Require Import ZArith Ascii String List.
From Verif Require Import GoBig TableModel.
Import ListNotations.
Local Open Scope string_scope.

Definition newline : ascii := "010"%char.
(** fmt.Println: a space between all operands and a newline at the end *)
Definition println (operands : list string) : string := String.concat " " operands ++ String newline "".

(** comfromtable.go:26-29 from row i on; what was printed before a panic stays printed *)
Fixpoint print_rows (i : Z) (bases ns : list Z) : string * outcome unit :=
  match bases with
  | [] => ("", Ret tt)
  | b :: bases =>
      let first := println ["BaseString"; dec i; " = """; dec b; """"] in       (* 27 *)
      match ns with
      | [] => (first, Panic)                                                     (* 28: p.n[i] *)
      | n :: ns =>
          let (rest, o) := print_rows (i + 1) bases ns in
          (first ++ println ["n"; dec i; " = "; dec n] ++ rest, o)               (* 28 *)
      end
  end.
Definition PrintTable (p : PreTable) : string * outcome unit := print_rows 0 (pt_base p) (pt_n p).

(** transcript.go:39-41 from string i on *)
Fixpoint print_infos (i : Z) (info : list string) : string :=
  match info with
  | [] => ""
  | s :: info => println ["Info["; dec i; "] = "; s] ++ print_infos (i + 1) info
  end.
(** transcript.go:37-42 *)
Definition Print (info : list string) : string :=
  println ["The transcript has "; dec (Z.of_nat (List.length info)); "strings as info."] ++ print_infos 0 info.
