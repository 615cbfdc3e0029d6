(** The recursive functions of package accumulator with explicit memory: every *big.Int is the address of a cell, and
    the functions say which cells they read, make and overwrite (/repo/accumulator/common.go:115-166,
    /repo/accumulator/accumulator.go:46-125, 186-229, zkacc.go:20-36). The values they compute are those of AccModel.
    A cell is a whole number: `prod1 = *f(...)` makes a new cell (the words it shares are never written, see
    IterModel). Slices of pointers are lists; the arrays behind them belong to the call that makes them. *)
From Coq Require Import ZArith Bool List.
From Verif Require Import GoBig AccModel IterModel.
Import ListNotations.
Open Scope Z_scope.

(** bigfft.Mul: a new number *)
Definition fft_mul (m : mem) (a b : addr) : outcome (mem * addr) :=
  do x <- load m a; do y <- load m b; Ret (alloc m (x * y)).

(** ret.Mul(&ret, x) for every x: common.go:120-122, 133-135 *)
Fixpoint mul_into (m : mem) (ret : addr) (set : list addr) : outcome mem :=
  match set with
  | [] => Ret m
  | a :: r => do x <- load m ret; do y <- load m a; mul_into (store m ret (x * y)) ret r
  end.
(** ret.Set(bigfft.Mul(&ret, x)) for every x: common.go:156-158 *)
Fixpoint fft_into (m : mem) (ret : addr) (set : list addr) : outcome mem :=
  match set with
  | [] => Ret m
  | a :: r => do (m, t) <- fft_mul m ret a; do y <- load m t; fft_into (store m ret y) ret r
  end.

(** common.go:115-124 SetProduct2 *)
Definition SetProduct2_mem (m : mem) (set : list addr) : outcome (mem * addr) :=
  let '(m, ret) := alloc m 0 in
  do m <- mul_into (store m ret 1) ret set;
  Ret (m, ret).

(** common.go:127-148 SetProductRecursive *)
Fixpoint product_mem (fuel : nat) (m : mem) (set : list addr) : outcome (mem * addr) :=
  let n := length set in
  let '(m, ret) := alloc m 0 in
  if (n <=? 2)%nat then do m <- mul_into (store m ret 1) ret set; Ret (m, ret)
  else match fuel with
       | O => OutOfFuel
       | S f =>
           do s1 <- go_slice set 0 (n / 2);
           do s2 <- go_slice set (n / 2) n;
           do (m, p1) <- product_mem f m s1;
           do v1 <- load m p1; let '(m, prod1) := alloc m v1 in
           do (m, p2) <- product_mem f m s2;
           do v2 <- load m p2; let '(m, prod2) := alloc m v2 in
           do x <- load m prod1; do y <- load m prod2;
           Ret (store m ret (x * y), ret)
       end.
Definition SetProductRecursive_mem (m : mem) (set : list addr) := product_mem (length set) m set.

(** common.go:151-166 SetProductRecursiveFast *)
Fixpoint product_fast_mem (fuel : nat) (m : mem) (set : list addr) : outcome (mem * addr) :=
  let n := length set in
  let '(m, ret) := alloc m 0 in
  if (n <=? 2)%nat then do m <- fft_into (store m ret 1) ret set; Ret (m, ret)
  else match fuel with
       | O => OutOfFuel
       | S f =>
           do s1 <- go_slice set 0 (n / 2);
           do s2 <- go_slice set (n / 2) n;
           do (m, p1) <- product_fast_mem f m s1;
           do v1 <- load m p1; let '(m, prod1) := alloc m v1 in
           do (m, p2) <- product_fast_mem f m s2;
           do v2 <- load m p2; let '(m, prod2) := alloc m v2 in
           do (m, t) <- fft_mul m prod1 prod2;
           do x <- load m t;
           Ret (store m ret x, ret)
       end.
Definition SetProductRecursiveFast_mem (m : mem) (set : list addr) := product_fast_mem (length set) m set.

(** accumulator.go:225-229 AccumulateNew: ret is a copy of g, then ret.Exp(g, power, N) *)
Definition AccumulateNew_mem (m : mem) (g power N : addr) : outcome (mem * addr) :=
  do x <- load m g;
  let '(m, ret) := alloc m x in
  do b <- load m g; do e <- load m power; do n <- load m N; do z <- load m ret;
  Ret (store m ret (exp_recv z b e n), ret).

(** multiexp.DoubleExp, FourfoldExp (external): one new number for each exponent *)
Fixpoint alloc_all (m : mem) (vs : list Z) : mem * list addr :=
  match vs with
  | [] => (m, [])
  | v :: r => let '(m, a) := alloc m v in let '(m, l) := alloc_all m r in (m, a :: l)
  end.
Definition multi_exp_mem (m : mem) (base N : addr) (es : list addr) : outcome (mem * list addr) :=
  do b <- load m base; do n <- load m N; do vs <- load_all m es;
  do ws <- multi_exp b n vs;
  Ret (alloc_all m ws).

(** accumulator.go:186-222 handleSmallSet *)
Definition handleSmallSet_mem (m : mem) (base N : addr) (set : list addr) : outcome (mem * list addr) :=
  match set with
  | [x0; x1; x2; x3] =>                                            (* 187-197 *)
      do (m, x0x1Prod) <- fft_mul m x0 x1;
      do (m, x2x3Prod) <- fft_mul m x2 x3;
      do (m, x0Prod) <- fft_mul m x2x3Prod x1;
      do (m, x1Prod) <- fft_mul m x2x3Prod x0;
      do (m, x2Prod) <- fft_mul m x0x1Prod x3;
      do (m, x3Prod) <- fft_mul m x0x1Prod x2;
      multi_exp_mem m base N [x0Prod; x1Prod; x2Prod; x3Prod]
  | [x0; x1; x2] =>                                                (* 198-207 *)
      do (m, x0Prod) <- fft_mul m x1 x2;
      do (m, x1Prod) <- fft_mul m x0 x2;
      do (m, x2Prod) <- fft_mul m x0 x1;
      do (m, doubleExp) <- multi_exp_mem m base N [x0Prod; x1Prod];
      do (m, p2) <- AccumulateNew_mem m base x2Prod N;
      Ret (m, doubleExp ++ [p2])
  | [x0; x1] => multi_exp_mem m base N [x1; x0]                    (* 208-211 *)
  | [_] =>                                                         (* 212-217 *)
      let '(m, ret) := alloc m 0 in
      do x <- load m base;
      Ret (store m ret x, [ret])
  | _ => Panic                                                     (* 219-221 *)
  end.

(** accumulator.go:100-125 ProveMembership *)
Fixpoint membership_mem (fuel : nat) (m : mem) (base N : addr) (set : list addr) : outcome (mem * list addr) :=
  let n := length set in
  if (n <=? 4)%nat then handleSmallSet_mem m base N set
  else match fuel with
       | O => OutOfFuel
       | S f =>
           do sR <- go_slice set (n / 2) n;
           do sL <- go_slice set 0 (n / 2);
           do sLR <- go_slice set (n / 4) (n / 2);
           do sLL <- go_slice set 0 (n / 4);
           do sRR <- go_slice set (n * 3 / 4) n;
           do sRL <- go_slice set (n / 2) (n * 3 / 4);
           do (m, leftProd) <- SetProductRecursiveFast_mem m sR;
           do (m, rightProd) <- SetProductRecursiveFast_mem m sL;
           do (m, leftleftProd) <- SetProductRecursiveFast_mem m sLR;
           do (m, leftrightProd) <- SetProductRecursiveFast_mem m sLL;
           do (m, rightleftProd) <- SetProductRecursiveFast_mem m sRR;
           do (m, rightrightProd) <- SetProductRecursiveFast_mem m sRL;
           do (m, e0) <- fft_mul m leftProd leftleftProd;
           do (m, e1) <- fft_mul m leftProd leftrightProd;
           do (m, e2) <- fft_mul m rightProd rightleftProd;
           do (m, e3) <- fft_mul m rightProd rightrightProd;
           do (m, bases) <- multi_exp_mem m base N [e0; e1; e2; e3];
           match bases with
           | [b0; b1; b2; b3] =>
               do (m, p0) <- membership_mem f m b0 N sLL;
               do (m, p1) <- membership_mem f m b1 N sLR;
               do (m, p2) <- membership_mem f m b2 N sRL;
               do (m, p3) <- membership_mem f m b3 N sRR;
               Ret (m, p0 ++ p1 ++ p2 ++ p3)
           | _ => Panic
           end
       end.
Definition ProveMembership_mem (m : mem) (base N : addr) (set : list addr) := membership_mem (length set) m base N set.

(** accumulator.go:54-58 and zkacc.go:30-35 after GenRepresentatives *)
Definition finish_mem (m : mem) (N : addr) (rep proofs : list addr) : outcome (mem * (addr * list addr)) :=
  do p0 <- go_index proofs 0;
  do r0 <- go_index rep 0;
  do (m, acc) <- AccumulateNew_mem m p0 r0 N;
  Ret (m, (acc, proofs)).
Definition AccAndProve_mem (m : mem) (G N : addr) (rep : list addr) : outcome (mem * (addr * list addr)) :=
  do (m, proofs) <- ProveMembership_mem m G N rep;
  finish_mem m N rep proofs.
(** r: the cell of the randomizer drawn *)
Definition ZKAccumulate_mem (m : mem) (G N r : addr) (rep : list addr) : outcome (mem * (addr * list addr)) :=
  do (m, base) <- AccumulateNew_mem m G r N;
  do (m, proofs) <- ProveMembership_mem m base N rep;
  finish_mem m N rep proofs.
