(** proof/three_square.go and the sorted tuples of proof/parameters.go. *)
From Coq Require Import ZArith Bool List.
From Verif Require Import GoBig Sched ListUpd.
Import ListNotations.
Open Scope Z_scope.

(** ** parameters.go. Values only: the arguments are made absolute in place and the results are the
    argument pointers, reordered. *)
Definition cmp_swap (a b : Z) : Z * Z := if a <? b then (b, a) else (a, b).
Definition Int3 := (Z * Z * Z)%type.
(** parameters.go:126-141 *)
Definition NewInt3 (w1 w2 w3 : Z) : Int3 :=
  let w1 := Z.abs w1 in let w2 := Z.abs w2 in let w3 := Z.abs w3 in
  let (w1, w2) := cmp_swap w1 w2 in
  let (w1, w3) := cmp_swap w1 w3 in
  let (w2, w3) := cmp_swap w2 w3 in
  (w1, w2, w3).
Definition Int4 := (Z * Z * Z * Z)%type.
(** parameters.go:35-60 *)
Definition NewInt4 (w1 w2 w3 w4 : Z) : Int4 :=
  let w1 := Z.abs w1 in let w2 := Z.abs w2 in let w3 := Z.abs w3 in let w4 := Z.abs w4 in
  let (w1, w2) := cmp_swap w1 w2 in
  let (w1, w3) := cmp_swap w1 w3 in
  let (w1, w4) := cmp_swap w1 w4 in
  let (w2, w3) := cmp_swap w2 w3 in
  let (w2, w4) := cmp_swap w2 w4 in
  let (w3, w4) := cmp_swap w3 w4 in
  (w1, w2, w3, w4).

(** ** Gaussian integers (github.com/txaty/go-bigcomplex; its source is not part of the repository) *)
Definition gaussian := (Z * Z)%type.

Section TS.
(** GaussianInt.GCD of the external package *)
Variable GCD : gaussian -> gaussian -> gaussian.
(** big.Int.ProbablyPrime(0) *)
Variable is_prime : Z -> bool.

Definition maxUFindingIter : nat := 10.   (* three_square.go:13 *)
Definition bitLenThreshold : Z := 13.     (* three_square.go:14 *)

(** three_square.go:133-145 *)
Definition gaussianIntGCD (s p : Z) : gaussian := GCD (s, 1) (p, 0).

(** three_square.go:79-107. [draws i] fixes the i-th call of frand.BigIntn(halfN): its value is
    [draws i mod halfN], which ranges over all of [0, halfN) as [draws i] does. powU is halved only
    right before the return, so the loop always starts from (n-1)/2. *)
Fixpoint find_loop (k : nat) (n : Z) (draws : nat -> Z) (i : nat) : option gaussian :=
  match k with
  | O => None
  | S k =>
      let nMin1 := n - 1 in
      let powU := Z.shiftr nMin1 1 in
      let halfN := Z.shiftr n 1 in
      let u := Z.shiftl (draws i mod halfN) 1 in
      let opt := exp_recv 0 u powU n in
      if opt =? nMin1 then Some (gaussianIntGCD (exp_recv 0 u (Z.shiftr powU 1) n) n)
      else find_loop k n draws (S i)
  end.
Definition findTwoSquares (n : Z) (draws : nat -> Z) : option gaussian := find_loop maxUFindingIter n draws 0.

(** three_square.go:109-131 *)
Definition isValidGaussianIntGCD (gcd : option gaussian) : bool :=
  match gcd with
  | None => false
  | Some (Re, Im) =>
      let absR := Z.abs Re in let absI := Z.abs Im in
      if (absR =? 1) && (absI =? 0) then false
      else if (absR =? 0) && (absI =? 1) then false
      else if (absR =? 1) && (absI =? 1) then false
      else true
  end.

(** ** ThreeSquares and its goroutines *)
Inductive routine :=
| RLoop (cnt : Z)        (* at the select, 47-50 *)
| RFind (x p : Z)        (* in the loop 64-67 *)
| ROffer (v : Int3)      (* at the non-blocking send, 68-73 *)
| RGone.
Inductive tsmain :=
| MSpawn (k : nat)       (* 32-34, k goroutines started *)
| MWait                  (* 35, blocked in <-resChan *)
| MGot (v : Int3)        (* value received, deferred cancel not yet run *)
| MRet (v : Int3).       (* returned *)
Record tsstate := { q_n : Z; q_rt : Z; q_R : nat; q_main : tsmain; q_rout : list routine }.

(** three_square.go:26-31. Sqrt of a negative number panics. *)
Definition ts_init (n : Z) (numRoutine : nat) : outcome tsstate :=
  if n <? 0 then Panic
  else Ret {| q_n := n; q_rt := Z.shiftr (Z.sqrt n) 1; q_R := numRoutine; q_main := MSpawn 0; q_rout := [] |}.

Inductive tschoice := QMain | QR (k : nat) (draws : nat -> Z).

Definition q_set_main (s : tsstate) m := {| q_n := q_n s; q_rt := q_rt s; q_R := q_R s; q_main := m; q_rout := q_rout s |}.
Definition q_set_rout (s : tsstate) r := {| q_n := q_n s; q_rt := q_rt s; q_R := q_R s; q_main := q_main s; q_rout := r |}.

(** three_square.go:51-63: one turn of the loop of routineFindTS *)
Definition loop_turn (n rt step cnt : Z) : routine :=
  let x := rt - cnt in
  if x <? 0 then RGone
  else
    let x := Z.shiftl x 1 in
    let p := n - x * x in
    if p <? 2 then RGone
    else if (bitLenThreshold <? bit_len p) && negb (is_prime p) then RLoop (cnt + step)
    else RFind x p.

Definition ts_step (s : tsstate) (c : tschoice) : option (outcome tsstate) :=
  match c with
  | QMain =>
      match q_main s with
      | MSpawn k =>
          if (k <? q_R s)%nat
          then Some (Ret (q_set_main (q_set_rout s (q_rout s ++ [RLoop (Z.of_nat k)])) (MSpawn (S k))))
          else Some (Ret (q_set_main s MWait))
      | MGot v => Some (Ret (q_set_main s (MRet v)))      (* defer cancel() *)
      | MWait | MRet _ => None
      end
  | QR k draws =>
      match nth_error (q_rout s) k with
      | Some (RLoop cnt) =>
          match q_main s with
          | MRet _ => Some (Ret (q_set_rout s (upd (q_rout s) k RGone)))      (* ctx.Done, 49-50 *)
          | _ => Some (Ret (q_set_rout s (upd (q_rout s) k (loop_turn (q_n s) (q_rt s) (Z.of_nat (q_R s)) cnt))))
          end
      | Some (RFind x p) =>
          let gcd := findTwoSquares p draws in
          if isValidGaussianIntGCD gcd then
            match gcd with
            | Some (Re, Im) => Some (Ret (q_set_rout s (upd (q_rout s) k (ROffer (NewInt3 x Re Im)))))
            | None => None
            end
          else Some (Ret s)                                                   (* 65: try again *)
      | Some (ROffer v) =>
          match q_main s with
          | MWait => Some (Ret (q_set_main (q_set_rout s (upd (q_rout s) k RGone)) (MGot v)))
          | _ => Some (Ret (q_set_rout s (upd (q_rout s) k RGone)))           (* 71: nobody listens, value lost *)
          end
      | _ => None
      end
  end.

Definition ts_ret (s : tsstate) : option Int3 := match q_main s with MRet v => Some v | _ => None end.
(** trying again is the only step that changes nothing *)
Definition ts_idle (c : tschoice) : bool := false.
End TS.

(** three_square.go:149-158 *)
Definition Verify (target : Z) (ti : Int3) : bool :=
  let '(t1, t2, t3) := ti in (t1 * t1 + t2 * t2 + t3 * t3 =? target).

(** ** A Gaussian gcd: Euclid's algorithm with rounding to the nearest quotient. Used to show that
    the assumptions on GCD can be met and to run examples. *)
Definition gadd (a b : gaussian) : gaussian := (fst a + fst b, snd a + snd b).
Definition gsub (a b : gaussian) : gaussian := (fst a - fst b, snd a - snd b).
Definition gmul (a b : gaussian) : gaussian :=
  (fst a * fst b - snd a * snd b, fst a * snd b + snd a * fst b).
Definition gnorm (a : gaussian) : Z := fst a * fst a + snd a * snd a.
Definition round_div (x n : Z) : Z := (2 * x + n) / (2 * n).
Definition gquot (a b : gaussian) : gaussian :=
  let n := gnorm b in
  (round_div (fst a * fst b + snd a * snd b) n, round_div (snd a * fst b - fst a * snd b) n).
Fixpoint euclid (fuel : nat) (a b : gaussian) : gaussian :=
  match fuel with
  | O => a
  | S f => if gnorm b =? 0 then a else euclid f b (gsub a (gmul b (gquot a b)))
  end.
Definition gauss_gcd (a b : gaussian) : gaussian := euclid (S (Z.to_nat (Z.log2 (gnorm b) + 1))) a b.
