(** The number groups of /repo/proof/parameters.go with their memory cells, the search of getPrime256 and
    GetPseudoRandomElement (/repo/accumulator/common.go).

    A *big.Int is a pointer to a cell, or nil; the heap gives the number in every cell. Two pointers may be the same. *)
From Coq Require Import ZArith Bool String List.
From Verif Require Import GoBig RandModel.
Import ListNotations.
Open Scope Z_scope.

Definition cells := nat -> Z.
Definition ptr := option nat.
Definition put (h : cells) (c : nat) (v : Z) : cells := fun d => if Nat.eqb d c then v else h d.

(** parameters.go:32, 124: arrays of pointers *)
Definition group4 := (ptr * ptr * ptr * ptr)%type.
Definition group3 := (ptr * ptr * ptr)%type.
Definition entries4 (f : group4) : list ptr := let '(a, b, c, d) := f in [a; b; c; d].

(** w.Abs(w) panics for nil *)
Definition abs_cell (h : cells) (w : ptr) : outcome cells := do c <- deref w; Ret (put h c (Z.abs (h c))).
(** if a.Cmp(b) == -1 { a, b = b, a } *)
Definition order (h : cells) (a b : ptr) : outcome (ptr * ptr) :=
  do c <- deref a; do d <- deref b; Ret (if h c <? h d then (b, a) else (a, b)).

(** parameters.go:35-60 NewInt4 *)
Definition NewInt4_cells (h : cells) (w1 w2 w3 w4 : ptr) : outcome (cells * group4) :=
  do h <- abs_cell h w1;
  do h <- abs_cell h w2;
  do h <- abs_cell h w3;
  do h <- abs_cell h w4;
  do (w1, w2) <- order h w1 w2;
  do (w1, w3) <- order h w1 w3;
  do (w1, w4) <- order h w1 w4;
  do (w2, w3) <- order h w2 w3;
  do (w2, w4) <- order h w2 w4;
  do (w3, w4) <- order h w3 w4;
  Ret (h, (w1, w2, w3, w4)).
(** parameters.go:127-142 NewInt3 *)
Definition NewInt3_cells (h : cells) (w1 w2 w3 : ptr) : outcome (cells * group3) :=
  do h <- abs_cell h w1;
  do h <- abs_cell h w2;
  do h <- abs_cell h w3;
  do (w1, w2) <- order h w1 w2;
  do (w1, w3) <- order h w1 w3;
  do (w2, w3) <- order h w2 w3;
  Ret (h, (w1, w2, w3)).

(** for i := 0; i < 4; i++ { f[i].Op(f[i], n) }: n is read again in every round *)
Fixpoint each_entry (op : Z -> Z -> outcome Z) (l : list ptr) (n : ptr) (h : cells) : outcome cells :=
  match l with
  | [] => Ret h
  | e :: l => do c <- deref e; do d <- deref n; do v <- op (h c) (h d); each_entry op l n (put h c v)
  end.
(** parameters.go:63-67 Mul *)
Definition Int4_Mul (f : group4) (n : ptr) (h : cells) : outcome cells := each_entry (fun x y => Ret (x * y)) (entries4 f) n h.
(** parameters.go:70-74 Div: big.Int.Div is Euclidean and panics for 0 *)
Definition Int4_Div (f : group4) (n : ptr) (h : cells) : outcome cells := each_entry go_div (entries4 f) n h.

(** big.Int.String prints a nil pointer as <nil> *)
Definition big_string (h : cells) (p : ptr) : string := match p with None => "<nil>" | Some c => dec (h c) end.
(** parameters.go:77-86 String *)
Definition Int4_String (f : group4) (h : cells) : string :=
  let '(a, b, c, d) := f in
  let res := "{"%string in
  let res := ((res ++ big_string h a) ++ ", ")%string in
  let res := ((res ++ big_string h b) ++ ", ")%string in
  let res := ((res ++ big_string h c) ++ ", ")%string in
  let res := (res ++ big_string h d)%string in
  (res ++ "}")%string.

(** accumulator/common.go:223-228 *)
Definition GetPseudoRandomElement (input : Z) : string := dec input.

Section Prime256.
(** big.Int.ProbablyPrime(securityPara / 2) *)
Variable is_prime : Z -> bool.
(** accumulator/common.go:269-283; draws: what crand.Prime(crand.Reader, 256) returns, in order; a list that is used up
    stands for a search still running. An error of crand (a panic) is not modelled. The return after the loop cannot be reached. *)
Fixpoint getPrime256 (draws : list Z) : outcome (Z * list Z) :=
  match draws with
  | [] => OutOfFuel
  | ranNum :: rest => if is_prime ranNum then Ret (ranNum, rest) else getPrime256 rest
  end.
(** accumulator/common.go:254-267: the printed P, A and B; src: the bytes crand.Int reads *)
Definition RandomSetupForUniversalHash (draws : list Z) (src : string) : outcome (Z * Z * Z) :=
  do (p, _) <- getPrime256 draws;
  do (a, b, _) <- RandomSetupForUniversalHash_AB p src;
  Ret (p, a, b).
End Prime256.
