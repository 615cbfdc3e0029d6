(** Model of the sequential parts of package accumulator:
    /repo/accumulator/accumulator.go and the set products of /repo/accumulator/common.go.

    Values of type *big.Int are integers here; ProveMembershipIter, which updates integers in
    place, is modelled with explicit memory in IterModel.v.
    bigfft.Mul is exact multiplication; multiexp.DoubleExp / FourfoldExp / FourfoldExpPrecomputed
    (external library) are assumed to return base^e mod N for each exponent, as big.Int.Exp does. *)
From Coq Require Import ZArith Bool List.
From Verif Require Import GoBig.
Import ListNotations.
Open Scope Z_scope.

(** common.go:103-112 SetProduct (slice of values) *)
Definition SetProduct (inputSet : list Z) : Z := fold_left Z.mul inputSet 1.

(** common.go:115-124 SetProduct2 (slice of pointers) *)
Definition SetProduct2 (inputSet : list Z) : Z := fold_left Z.mul inputSet 1.

(** common.go:127-148 SetProductRecursive; the fuel bounds the recursion depth *)
Fixpoint set_product_recursive (fuel : nat) (inputSet : list Z) : outcome Z :=
  let n := length inputSet in
  if (n <=? 2)%nat then Ret (fold_left Z.mul inputSet 1)
  else match fuel with
       | O => OutOfFuel
       | S f =>
           do s1 <- go_slice inputSet 0 (n / 2);
           do s2 <- go_slice inputSet (n / 2) n;
           do prod1 <- set_product_recursive f s1;
           do prod2 <- set_product_recursive f s2;
           Ret (prod1 * prod2)
       end.
Definition SetProductRecursive (inputSet : list Z) : outcome Z :=
  set_product_recursive (length inputSet) inputSet.

(** common.go:151-166 SetProductRecursiveFast (bigfft.Mul instead of Mul) *)
Fixpoint set_product_recursive_fast (fuel : nat) (inputSet : list Z) : outcome Z :=
  let n := length inputSet in
  if (n <=? 2)%nat then Ret (fold_left Z.mul inputSet 1)
  else match fuel with
       | O => OutOfFuel
       | S f =>
           do s1 <- go_slice inputSet 0 (n / 2);
           do s2 <- go_slice inputSet (n / 2) n;
           do prod1 <- set_product_recursive_fast f s1;
           do prod2 <- set_product_recursive_fast f s2;
           Ret (prod1 * prod2)
       end.
Definition SetProductRecursiveFast (inputSet : list Z) : outcome Z :=
  set_product_recursive_fast (length inputSet) inputSet.

(** accumulator.go:225-229 AccumulateNew: a copy of g, overwritten by Exp *)
Definition AccumulateNew (g power N : Z) : Z := exp_recv g g power N.

(** accumulator.go:231-236 accumulate, as a function of the value of g *)
Definition accumulate_val (g N : Z) (set : list Z) : Z :=
  fold_left (fun acc v => exp_recv acc acc v N) set g.

(** multiexp (external): base^e mod N for each exponent e; nil results would panic later *)
Definition multi_exp (base N : Z) (es : list Z) : outcome (list Z) :=
  map_outcome (fun e => deref (big_exp base e N)) es.

(** accumulator.go:186-222 handleSmallSet *)
Definition handleSmallSet (base N : Z) (set : list Z) : outcome (list Z) :=
  match set with
  | [x0; x1; x2; x3] =>                                            (* 187-197 *)
      let x0x1Prod := x0 * x1 in
      let x2x3Prod := x2 * x3 in
      let x0Prod := x2x3Prod * x1 in
      let x1Prod := x2x3Prod * x0 in
      let x2Prod := x0x1Prod * x3 in
      let x3Prod := x0x1Prod * x2 in
      multi_exp base N [x0Prod; x1Prod; x2Prod; x3Prod]
  | [x0; x1; x2] =>                                                (* 198-207 *)
      let x0Prod := x1 * x2 in
      let x1Prod := x0 * x2 in
      let x2Prod := x0 * x1 in
      do doubleExp <- multi_exp base N [x0Prod; x1Prod];
      Ret (doubleExp ++ [AccumulateNew base x2Prod N])
  | [x0; x1] => multi_exp base N [x1; x0]                          (* 208-211 *)
  | [_] => Ret [base]                                              (* 212-217 *)
  | _ => Panic                                                     (* 219-221 *)
  end.

(** accumulator.go:100-125 ProveMembership; the fuel bounds the recursion depth *)
Fixpoint prove_membership (fuel : nat) (base N : Z) (set : list Z) : outcome (list Z) :=
  let n := length set in
  if (n <=? 4)%nat then handleSmallSet base N set
  else match fuel with
       | O => OutOfFuel
       | S f =>
           do sR <- go_slice set (n / 2) n;
           do sL <- go_slice set 0 (n / 2);
           do sLR <- go_slice set (n / 4) (n / 2);
           do sLL <- go_slice set 0 (n / 4);
           do sRR <- go_slice set (n * 3 / 4) n;
           do sRL <- go_slice set (n / 2) (n * 3 / 4);
           do leftProd <- SetProductRecursiveFast sR;
           do rightProd <- SetProductRecursiveFast sL;
           do leftleftProd <- SetProductRecursiveFast sLR;
           do leftrightProd <- SetProductRecursiveFast sLL;
           do rightleftProd <- SetProductRecursiveFast sRR;
           do rightrightProd <- SetProductRecursiveFast sRL;
           do bases <- multi_exp base N
                [leftProd * leftleftProd; leftProd * leftrightProd;
                 rightProd * rightleftProd; rightProd * rightrightProd];
           match bases with
           | [b0; b1; b2; b3] =>
               do p0 <- prove_membership f b0 N sLL;
               do p1 <- prove_membership f b1 N sLR;
               do p2 <- prove_membership f b2 N sRL;
               do p3 <- prove_membership f b3 N sRR;
               Ret (p0 ++ p1 ++ p2 ++ p3)
           | _ => Panic
           end
       end.
Definition ProveMembership (base N : Z) (set : list Z) : outcome (list Z) :=
  prove_membership (length set) base N set.

(** accumulator.go:73-97 ProveMembershipSingleThreadWithRandomizer.
    FourfoldExpPrecomputed with a table valid for (base, N) is base^e mod N. There is no guard for
    small sets. *)
Definition ProveMembershipSingleThreadWithRandomizer (base randomizer N : Z) (set : list Z)
  : outcome (list Z) :=
  let n := length set in
  do sR <- go_slice set (n / 2) n;
  do sL <- go_slice set 0 (n / 2);
  do leftProd0 <- SetProductRecursiveFast sR;
  do rightProd0 <- SetProductRecursiveFast sL;
  let leftProd := leftProd0 * randomizer in
  let rightProd := rightProd0 * randomizer in
  do sLR <- go_slice set (n / 4) (n / 2);
  do sLL <- go_slice set 0 (n / 4);
  do sRR <- go_slice set (n * 3 / 4) n;
  do sRL <- go_slice set (n / 2) (n * 3 / 4);
  do leftleftProd <- SetProductRecursiveFast sLR;
  do leftrightProd <- SetProductRecursiveFast sLL;
  do rightleftProd <- SetProductRecursiveFast sRR;
  do rightrightProd <- SetProductRecursiveFast sRL;
  do bases <- multi_exp base N
       [leftProd * leftleftProd; leftProd * leftrightProd;
        rightProd * rightleftProd; rightProd * rightrightProd];
  match bases with
  | [b0; b1; b2; b3] =>
      do p0 <- ProveMembership b0 N sLL;
      do p1 <- ProveMembership b1 N sLR;
      do p2 <- ProveMembership b2 N sRL;
      do p3 <- ProveMembership b3 N sRR;
      Ret (p0 ++ p1 ++ p2 ++ p3)
  | _ => Panic
  end.

(** accumulator.go:54-58, the tail shared by AccAndProve (46-59), AccAndProveIter (62-70),
    AccAndProveParallel (concurrent.go:15-28), AccAndProveIterParallel (31-44) and ZKAccumulate
    (zkacc.go:20-36): acc := AccumulateNew(proofs[0], rep[0], N) *)
Definition finish_acc (N : Z) (rep proofs : list Z) : outcome (Z * list Z) :=
  do p0 <- go_index proofs 0;
  do r0 <- go_index rep 0;
  Ret (AccumulateNew p0 r0 N, proofs).

(** accumulator.go:54-58 AccAndProve after GenRepresentatives *)
Definition AccAndProve_rep (G N : Z) (rep : list Z) : outcome (Z * list Z) :=
  do proofs <- ProveMembership G N rep;
  finish_acc N rep proofs.

(** zkacc.go:28-35 ZKAccumulate after GenRepresentatives, r being the randomizer drawn *)
Definition ZKAccumulate_rep (G N r : Z) (rep : list Z) : outcome (Z * list Z) :=
  let base := AccumulateNew G r N in
  do proofs <- ProveMembership base N rep;
  finish_acc N rep proofs.
