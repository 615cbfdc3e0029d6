(** Semantics of the parts of Go used by the models: outcomes, slices and math/big.

    Nothing in this file comes from /repo: it writes down what the Go language and the Go 1.19
    package math/big do, so that the model files can follow /repo line by line. *)
From Coq Require Import ZArith Bool Lia String Ascii DecimalString List.
Import ListNotations.
Open Scope Z_scope.

(** ** Outcomes of a call: a value, a run-time panic, or a loop cut by its fuel. *)
Inductive outcome (A : Type) : Type :=
| Ret (a : A)
| Panic
| OutOfFuel.
Arguments Ret {A} _.
Arguments Panic {A}.
Arguments OutOfFuel {A}.

Definition bind {A B} (x : outcome A) (f : A -> outcome B) : outcome B :=
  match x with Ret a => f a | Panic => Panic | OutOfFuel => OutOfFuel end.
Notation "'do' x <- e1 ; e2" := (bind e1 (fun x => e2))
  (at level 200, x pattern, e1 at level 100, e2 at level 200, right associativity).

(** a nil pointer that is dereferenced afterwards *)
Definition deref {A} (x : option A) : outcome A :=
  match x with Some a => Ret a | None => Panic end.

(** ** Slices: [s[i]] and [s[a:b]], panicking out of range. *)
Definition go_index {A} (s : list A) (i : nat) : outcome A := deref (nth_error s i).
Definition go_slice {A} (s : list A) (a b : nat) : outcome (list A) :=
  if (a <=? b)%nat && (b <=? length s)%nat then Ret (firstn (b - a) (skipn a s)) else Panic.

(** map over a slice with a function that may panic, left to right *)
Fixpoint map_outcome {A B} (f : A -> outcome B) (l : list A) : outcome (list B) :=
  match l with
  | nil => Ret nil
  | x :: r => do y <- f x; do ys <- map_outcome f r; Ret (y :: ys)
  end.

(** ** math/big *)

(** Int.BitLen: length of the absolute value in bits, 0 for 0 *)
Definition bit_len (x : Z) : Z := if x =? 0 then 0 else Z.log2 (Z.abs x) + 1.

(** Int.DivMod / Int.Div / Int.Mod: Euclidean division, panics on a zero divisor *)
Definition ediv (x y : Z) : Z := Z.sgn y * (x / Z.abs y).
Definition emod (x y : Z) : Z := x mod Z.abs y.
Definition go_div (x y : Z) : outcome Z := if y =? 0 then Panic else Ret (ediv x y).
Definition go_mod (x y : Z) : outcome Z := if y =? 0 then Panic else Ret (emod x y).

(** extended Euclid, used by Int.ModInverse through Int.GCD *)
Fixpoint egcd (fuel : nat) (a b : Z) : Z * Z * Z :=
  match fuel with
  | O => (a, 1, 0)
  | S f => if b =? 0 then (a, 1, 0)
           else let '(g, x, y) := egcd f b (a mod b) in (g, y, x - (a / b) * y)
  end.
Definition egcd_fuel (b : Z) : nat := Z.to_nat (2 * bit_len b + 2).

(** Int.ModInverse(g, n): nil when g and n are not coprime (or n = 0), otherwise the inverse in
    [0,|n|). *)
Definition mod_inverse (g n : Z) : option Z :=
  let m := Z.abs n in
  if m =? 0 then None
  else let '(d, x, _) := egcd (egcd_fuel m) (g mod m) m in
       if d =? 1 then Some (x mod m) else None.

(** x^y mod m for y >= 0, m > 0 by square and multiply, so that the model can be run.
    It agrees with [(x ^ y) mod m] (lemma in GoBigFacts.v). *)
Fixpoint powmod_pos (x : Z) (y : positive) (m : Z) : Z :=
  match y with
  | xH => x mod m
  | xO p => powmod_pos ((x * x) mod m) p m
  | xI p => (x * powmod_pos ((x * x) mod m) p m) mod m
  end.
Definition powmod (x y m : Z) : Z :=
  match y with
  | Z0 => 1 mod m
  | Zpos p => powmod_pos x p m
  | Zneg _ => 0
  end.

(** Int.Exp(x, y, m): [None] is the nil result returned for y < 0 and x not invertible mod m, in
    which case the receiver keeps its old value. m = 0 stands for both 0 and nil.
    The sign test on x after the inversion reproduces Go 1.19's int.go. *)
Definition big_exp (x y m : Z) : option Z :=
  if m =? 0 then Some (if y <=? 0 then 1 else x ^ y)
  else if 0 <=? y then Some (powmod x y (Z.abs m))
  else match mod_inverse x m with
       | None => None
       | Some i =>
           let z := powmod i (- y) (Z.abs m) in
           Some (if (x <? 0) && Z.odd y && negb (z =? 0) then Z.abs m - z else z)
       end.

(** [z.Exp(x,y,m)] used as a statement: the new value of the receiver [z] *)
Definition exp_recv (z x y m : Z) : Z :=
  match big_exp x y m with Some v => v | None => z end.

(** Int.Bytes: minimal big-endian bytes of the absolute value, as a Go string *)
Fixpoint bytes_le (fuel : nat) (x : Z) : list ascii :=
  match fuel with
  | O => []
  | S f => if x =? 0 then [] else ascii_of_N (Z.to_N (x mod 256)) :: bytes_le f (x / 256)
  end.
Definition big_bytes (x : Z) : string :=
  string_of_list_ascii (rev (bytes_le (Z.to_nat (bit_len x)) (Z.abs x))).

(** Int.SetBytes: big-endian bytes to a non-negative integer *)
Definition byte_val (a : ascii) : Z := Z.of_N (N_of_ascii a).
Definition set_bytes (s : string) : Z :=
  fold_left (fun acc a => acc * 256 + byte_val a) (list_ascii_of_string s) 0.

(** Int.String / strconv.Itoa: decimal representation *)
Definition dec (x : Z) : string := NilZero.string_of_int (Z.to_int x).

(** Int.SetString(s, 10): optional sign, then at least one decimal digit, nothing else *)
Definition digit_val (a : ascii) : option Z :=
  let v := byte_val a - 48 in if (0 <=? v) && (v <=? 9) then Some v else None.
Fixpoint parse_digits (acc : Z) (l : list ascii) : option Z :=
  match l with
  | [] => Some acc
  | a :: r => match digit_val a with Some d => parse_digits (acc * 10 + d) r | None => None end
  end.
Definition set_string10 (s : string) : option Z :=
  match list_ascii_of_string s with
  | [] => None
  | a :: r =>
      if Ascii.eqb a "-"%char then
        match r with [] => None | _ => option_map Z.opp (parse_digits 0 r) end
      else if Ascii.eqb a "+"%char then
        match r with [] => None | _ => parse_digits 0 r end
      else parse_digits 0 (a :: r)
  end.
