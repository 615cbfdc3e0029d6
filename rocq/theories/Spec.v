(** Vocabulary of the properties. Independent of every model file. *)
From Coq Require Import ZArith Ascii String List.
Import ListNotations.
Open Scope Z_scope.

(** product of a list of integers *)
Definition product (l : list Z) : Z := fold_right Z.mul 1 l.

(** the list without its i-th element *)
Definition without {A} (i : nat) (l : list A) : list A := firstn i l ++ skipn (S i) l.

(** [proofs] are the membership witnesses of [set] for [base] modulo [N]: one per element, the i-th
    being base raised to the product of all the other elements *)
Definition witnesses (base N : Z) (set proofs : list Z) : Prop :=
  length proofs = length set /\
  forall i w, nth_error proofs i = Some w -> w = base ^ product (without i set) mod N.

(** [w] is a membership witness of [x] for the accumulator value [acc] *)
Definition verifies (N w x acc : Z) : Prop := w ^ x mod N = acc.

(** [v] is the integer power g^k modulo N, k possibly negative *)
Definition is_power (N g k v : Z) : Prop :=
  0 <= v < N /\
  (0 <= k -> v = g ^ k mod N) /\
  (k < 0 -> (v * g ^ (- k)) mod N = 1 mod N).

Definition sum_list (l : list Z) : Z := fold_right Z.add 0 l.

(** strings that denote an optionally signed decimal number *)
Definition is_digit (a : ascii) : Prop := (48 <= nat_of_ascii a <= 57)%nat.
Definition decimal_string (s : string) : Prop :=
  exists sign digits, list_ascii_of_string s = (sign ++ digits)%list /\
    (sign = [] \/ sign = ["-"%char] \/ sign = ["+"%char]) /\ digits <> [] /\ Forall is_digit digits.
