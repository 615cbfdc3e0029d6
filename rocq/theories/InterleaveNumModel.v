(** The parallel functions of /repo/accumulator once more, with the numbers in memory as well.

    In InterleaveModel.v a *big.Int is its value. Here a number is an array of one cell, a slice of
    *big.Int holds the names of such arrays, and a scheduler may switch between goroutines before every
    single read or write of a number or of a cell of a slice. The programs and schedules are those of
    InterleaveModel.v.

    A number is one cell: the arrays of words that copied big.Int values share are the subject of
    WordModel.v. The functions of multiexp and bigfft (external) read their arguments, as often as they
    like, which is once here, and return new numbers. Local variables that are not numbers, among them
    the arrays [4]*big.Int passed by value, are not in memory. *)
From Coq Require Import ZArith Bool List.
From Verif Require Import GoBig AccModel SliceModel InterleaveModel.
Import ListNotations.
Open Scope nat_scope.

(** ** numbers *)
(** new(big.Int).SetX(v), and the use and the overwriting of the number [a] *)
Definition pnew (v : Z) : prog nat := PNew 1 (fun a => PWrite a 0 (Some v) (PRet a)).
Definition pval (a : nat) : prog Z := PRead a 0 (fun c => plift (deref c)).
Definition pset (a : nat) (v : Z) : prog unit := PWrite a 0 (Some v) (PRet tt).

(** the pointer to number [a] in a cell of a slice; s[i] *)
Definition ptr (a : nat) : cell := Some (Z.of_nat a).
Definition pelem (s : hdr) (i : nat) : prog nat := pdo z <- pgetz s i; PRet (Z.to_nat z).

(** bigfft.Mul(x, y) *)
Definition pmul (a b : nat) : prog nat := pdo x <- pval a; pdo y <- pval b; pnew (x * y)%Z.

(** common.go:151-166 SetProductRecursiveFast; the fuel bounds the recursion depth *)
Fixpoint mul_loop_n (ret : nat) (s : hdr) (i k : nat) : prog unit :=            (* 156-158 *)
  match k with
  | O => PRet tt
  | S k' =>
      pdo x <- pelem s i; pdo t <- pmul ret x; pdo v <- pval t; pdo _ <- pset ret v;
      mul_loop_n ret s (S i) k'
  end.
Fixpoint set_product_n (fuel : nat) (s : hdr) : prog nat :=
  let n := h_len s in
  pdo ret <- pnew 0;                                                            (* 153 *)
  if n <=? 2 then pdo _ <- pset ret 1; pdo _ <- mul_loop_n ret s 0 n; PRet ret  (* 154-159 *)
  else match fuel with
       | O => PStop
       | S f =>
           pdo s1 <- preslice s 0 (n / 2);                                      (* 162 *)
           pdo q1 <- set_product_n f s1; pdo v1 <- pval q1; pdo prod1 <- pnew v1;
           pdo s2 <- pfrom s (n / 2);                                           (* 163 *)
           pdo q2 <- set_product_n f s2; pdo v2 <- pval q2; pdo prod2 <- pnew v2;
           pdo t <- pmul prod1 prod2; pdo v <- pval t; pdo _ <- pset ret v;     (* 164 *)
           PRet ret
       end.
Definition SetProductRecursiveFast_n (s : hdr) : prog nat := set_product_n (h_len s) s.

(** common.go:170-191 SetProductParallel and 194-220 setProductParallelWithChan; the fuel bounds the
    recursion depth *)
Fixpoint product_parallel_n (fuel : nat) (s : hdr) (limit : Z) : prog nat :=
  if (limit =? 0)%Z then SetProductRecursiveFast_n s                            (* 171-173, 195-199 *)
  else
    let limit := (limit - 1)%Z in                                               (* 174, 200 *)
    let n := h_len s in
    if n <=? 2 then SetProductRecursiveFast_n s                                 (* 176-178, 202-206 *)
    else match fuel with
         | O => PStop
         | S f =>
             pdo s1 <- preslice s 0 (n / 2);                                    (* 182, 210 *)
             pdo (prod1, prod2) <-
               ppar (product_parallel_n f s1 limit)
                    (pdo s2 <- pfrom s (n / 2);                                 (* 183, 211 *)
                     product_parallel_n f s2 limit);
             pdo ret <- pnew 0;                                                 (* 187, 215 *)
             pdo x <- pval prod1; pdo y <- pval prod2; pdo _ <- pset ret (x * y)%Z;   (* 188, 216 *)
             PRet ret
         end.
Definition SetProductParallel_n (s : hdr) (limit : Z) : prog nat := product_parallel_n (h_len s) s limit.

(** FourfoldExp, FourfoldExpPrecomputed(Parallel), DoubleExp (multiexp, external): new numbers, and the
    slice of the whole returned array *)
Fixpoint pvals (l : list nat) : prog (list Z) :=
  match l with
  | [] => PRet []
  | a :: l' => pdo v <- pval a; pdo vs <- pvals l'; PRet (v :: vs)
  end.
Fixpoint pnews (vs : list Z) : prog (list nat) :=
  match vs with
  | [] => PRet []
  | v :: vs' => pdo a <- pnew v; pdo l <- pnews vs'; PRet (a :: l)
  end.
Definition exps_n (base N : nat) (es : list nat) : prog hdr :=
  pdo b <- pval base; pdo n <- pval N; pdo evs <- pvals es;
  pdo vs <- plift (multi_exp b n evs);
  pdo l <- pnews vs; pnew_array (map ptr l).

(** accumulator.go:225-229 AccumulateNew *)
Definition AccumulateNew_n (g power N : nat) : prog nat :=
  pdo v <- pval g; pdo ret <- pnew v;                                           (* 226 *)
  pdo x <- pval g; pdo y <- pval power; pdo m <- pval N;
  pdo z <- pval ret; pdo _ <- pset ret (exp_recv z x y m);                      (* 227 *)
  PRet ret.

Section InterleaveNum.
Variable grow : nat -> nat -> nat.

(** accumulator.go:186-222 handleSmallSet *)
Definition handleSmallSet_n (base N : nat) (s : hdr) : prog hdr :=
  match h_len s with
  | 4 =>
      pdo a0 <- pelem s 0; pdo a1 <- pelem s 1; pdo x0x1Prod <- pmul a0 a1;     (* 189 *)
      pdo a2 <- pelem s 2; pdo a3 <- pelem s 3; pdo x2x3Prod <- pmul a2 a3;     (* 190 *)
      pdo b1 <- pelem s 1; pdo x0Prod <- pmul x2x3Prod b1;                      (* 191 *)
      pdo b0 <- pelem s 0; pdo x1Prod <- pmul x2x3Prod b0;                      (* 192 *)
      pdo b3 <- pelem s 3; pdo x2Prod <- pmul x0x1Prod b3;                      (* 193 *)
      pdo b2 <- pelem s 2; pdo x3Prod <- pmul x0x1Prod b2;                      (* 194 *)
      exps_n base N [x0Prod; x1Prod; x2Prod; x3Prod]                            (* 195-196 *)
  | 3 =>
      pdo a1 <- pelem s 1; pdo a2 <- pelem s 2; pdo x0Prod <- pmul a1 a2;       (* 200 *)
      pdo a0 <- pelem s 0; pdo b2 <- pelem s 2; pdo x1Prod <- pmul a0 b2;       (* 201 *)
      pdo b0 <- pelem s 0; pdo b1 <- pelem s 1; pdo x2Prod <- pmul b0 b1;       (* 202 *)
      pdo ret <- exps_n base N [x0Prod; x1Prod];                                (* 203-204 *)
      pdo t <- AccumulateNew_n base x2Prod N; pappend grow ret [ptr t]          (* 205-206 *)
  | 2 =>
      pdo a1 <- pelem s 1; pdo a0 <- pelem s 0; exps_n base N [a1; a0]          (* 209-210 *)
  | 1 =>
      pdo ret <- pmake 1 1;                                                     (* 213 *)
      pdo t <- pnew 0; pdo _ <- pput ret 0 (ptr t);                             (* 214 *)
      pdo u <- pelem ret 0; pdo v <- pval base; pdo _ <- pset u v;              (* 215 *)
      PRet ret
  | _ => PStop                                                                  (* 219-221 *)
  end.

(** accumulator.go:75-90 (with a randomizer), 106-119; concurrent.go:60-73, 114-127, 188-201, 245-258 *)
Definition four_bases_n (base N : nat) (randomizer : option nat) (s : hdr) : prog hdr :=
  let n := h_len s in
  let randomized p := match randomizer with Some r => pmul p r | None => PRet p end in
  pdo sR <- pfrom s (n / 2);                  pdo leftProd0 <- SetProductRecursiveFast_n sR;
  pdo sL <- preslice s 0 (n / 2);             pdo rightProd0 <- SetProductRecursiveFast_n sL;
  pdo leftProd <- randomized leftProd0;                                         (* accumulator.go:77 *)
  pdo rightProd <- randomized rightProd0;                                       (* accumulator.go:78 *)
  pdo sLR <- preslice s (n / 4) (n / 2);      pdo leftleftProd <- SetProductRecursiveFast_n sLR;
  pdo sLL <- preslice s 0 (n / 4);            pdo leftrightProd <- SetProductRecursiveFast_n sLL;
  pdo sRR <- pfrom s (n * 3 / 4);             pdo rightleftProd <- SetProductRecursiveFast_n sRR;
  pdo sRL <- preslice s (n / 2) (n * 3 / 4);  pdo rightrightProd <- SetProductRecursiveFast_n sRL;
  pdo e0 <- pmul leftProd leftleftProd;
  pdo e1 <- pmul leftProd leftrightProd;
  pdo e2 <- pmul rightProd rightleftProd;
  pdo e3 <- pmul rightProd rightrightProd;
  exps_n base N [e0; e1; e2; e3].

(** accumulator.go:92-96, 120-124: four calls and three appends *)
Definition four_calls_n (call : nat -> hdr -> prog hdr) (bases s : hdr) : prog hdr :=
  let n := h_len s in
  pdo b0 <- pelem bases 0; pdo s0 <- preslice s 0 (n / 4);           pdo p0 <- call b0 s0;
  pdo b1 <- pelem bases 1; pdo s1 <- preslice s (n / 4) (n / 2);     pdo q1 <- call b1 s1;
  pdo p1 <- pappend_slice grow p0 q1;
  pdo b2 <- pelem bases 2; pdo s2 <- preslice s (n / 2) (n * 3 / 4); pdo q2 <- call b2 s2;
  pdo p2 <- pappend_slice grow p1 q2;
  pdo b3 <- pelem bases 3; pdo s3 <- pfrom s (n * 3 / 4);            pdo q3 <- call b3 s3;
  pappend_slice grow p2 q3.

(** accumulator.go:100-125 ProveMembership; the fuel bounds the recursion depth *)
Fixpoint prove_membership_n (fuel : nat) (N base : nat) (s : hdr) : prog hdr :=
  if h_len s <=? 4 then handleSmallSet_n base N s                               (* 102-104 *)
  else match fuel with
       | O => PStop
       | S f => pdo bases <- four_bases_n base N None s; four_calls_n (prove_membership_n f N) bases s
       end.
Definition ProveMembership_n (N base : nat) (s : hdr) : prog hdr := prove_membership_n (h_len s) N base s.

(** accumulator.go:73-97 ProveMembershipSingleThreadWithRandomizer *)
Definition SingleThreadWithRandomizer_n (N base randomizer : nat) (s : hdr) : prog hdr :=
  pdo bases <- four_bases_n base N (Some randomizer) s; four_calls_n (ProveMembership_n N) bases s.

(** concurrent.go:287-313 proveMembershipWithChan; the fuel bounds the recursion depth *)
Fixpoint with_chan_n (fuel : nat) (N : nat) (limit : Z) (base : nat) (s : hdr) : prog hdr :=
  if (limit <=? 0)%Z then ProveMembership_n N base s                            (* 288-292 *)
  else
    let limit := (limit - 1)%Z in                                               (* 293 *)
    if h_len s <=? 4 then handleSmallSet_n base N s                             (* 294-298 *)
    else match fuel with
         | O => PStop
         | S f =>
             let n := h_len s in
             pdo sR <- pfrom s (n / 2);       pdo leftProd <- SetProductRecursiveFast_n sR;
             pdo sL <- preslice s 0 (n / 2);  pdo rightProd <- SetProductRecursiveFast_n sL;
             pdo bases <- exps_n base N [leftProd; rightProd];                  (* 303 *)
             pdo b0 <- pelem bases 0; pdo s1 <- preslice s 0 (n / 2);           (* 306 *)
             pdo (proofs1, proofs2) <-
               ppar (with_chan_n f N limit b0 s1)
                    (pdo b1 <- pelem bases 1; pdo s2 <- pfrom s (n / 2);        (* 307 *)
                     with_chan_n f N limit b1 s2);
             pappend_slice grow proofs1 proofs2                                 (* 308-311 *)
         end.
Definition WithChan_n (N : nat) (limit : Z) (base : nat) (s : hdr) : prog hdr :=
  with_chan_n (h_len s) N limit base s.

(** the four go statements and receives of concurrent.go:80-97, 134-151, 208-225 and 265-282 *)
Definition four_goroutines_n (N : nat) (limit : Z) (bases s : hdr) : prog hdr :=
  let n := h_len s in
  pdo b0 <- pelem bases 0; pdo s0 <- preslice s 0 (n / 4);
  pdo (proofs1, (proofs2, (proofs3, proofs4))) <-
    ppar (WithChan_n N limit b0 s0)
      (pdo b1 <- pelem bases 1; pdo s1 <- preslice s (n / 4) (n / 2);
       ppar (WithChan_n N limit b1 s1)
         (pdo b2 <- pelem bases 2; pdo s2 <- preslice s (n / 2) (n * 3 / 4);
          ppar (WithChan_n N limit b2 s2)
            (pdo b3 <- pelem bases 3; pdo s3 <- pfrom s (n * 3 / 4);
             WithChan_n N limit b3 s3)));
  pdo p1 <- pappend_slice grow proofs1 proofs2;
  pdo p2 <- pappend_slice grow p1 proofs3;
  pappend_slice grow p2 proofs4.

(** concurrent.go:48-98 ProveMembershipParallel and, with a table, 102-171 *)
Definition ProveMembershipParallel_n (N base : nat) (s : hdr) (limit : Z) : prog hdr :=
  if (limit <=? 0)%Z then ProveMembership_n N base s
  else if h_len s <=? 4 then handleSmallSet_n base N s
  else pdo bases <- four_bases_n base N None s; four_goroutines_n N (limit - 2) bases s.

(** concurrent.go:176-226 ProveMembershipParallelWithTableWithRandomizer and, sending the slice over a
    channel, 231-284 *)
Definition ParallelWithRandomizer_n (N base randomizer : nat) (s : hdr) (limit : Z) : prog hdr :=
  if (limit <=? 0)%Z then SingleThreadWithRandomizer_n N base randomizer s
  else pdo bases <- four_bases_n base N None s; four_goroutines_n N (limit - 2) bases s.
End InterleaveNum.
