(** Model of the fork-join functions of package accumulator:
    SetProductParallel (/repo/accumulator/common.go:170-220) and the recursive parallel provers of
    /repo/accumulator/concurrent.go:48-313, as goroutine trees (ForkJoin.v).

    multiexp.FourfoldExp, FourfoldExpPrecomputedParallel (with a table valid for base and N) and
    DoubleExp (external) are base^e mod N. int overflow of limit is not modelled. *)
From Coq Require Import ZArith Bool List.
From Verif Require Import GoBig AccModel ForkJoin.
Import ListNotations.
Open Scope Z_scope.

(** ** SetProductParallel *)
Inductive sp_task :=
| SPTop (inputSet : list Z) (limit : Z)      (* common.go:170-191 SetProductParallel *)
| SPChan (inputSet : list Z) (limit : Z).    (* common.go:194-220 setProductParallelWithChan *)

Definition mul2 (vs : list Z) : Z := match vs with [prod1; prod2] => prod1 * prod2 | _ => 0 end.

Definition sp_expand (t : sp_task) : outcome (action sp_task Z) :=
  match t with
  | SPTop inputSet limit =>
      if limit =? 0 then do v <- SetProductRecursiveFast inputSet; Ret (Leaf v)    (* 171-173 *)
      else
        let limit := limit - 1 in                                                  (* 174 *)
        let n := length inputSet in
        if (n <=? 2)%nat then do v <- SetProductRecursiveFast inputSet; Ret (Leaf v)
        else
          do s1 <- go_slice inputSet 0 (n / 2);
          do s2 <- go_slice inputSet (n / 2) n;
          Ret (Fork [SPChan s1 limit; SPChan s2 limit] mul2)                       (* 180-190 *)
  | SPChan inputSet limit =>
      if limit =? 0 then do v <- SetProductRecursiveFast inputSet; Ret (Leaf v)    (* 195-199 *)
      else
        let limit := limit - 1 in                                                  (* 200 *)
        let n := length inputSet in
        if (n <=? 2)%nat then do v <- SetProductRecursiveFast inputSet; Ret (Leaf v)
        else
          do s1 <- go_slice inputSet 0 (n / 2);
          do s2 <- go_slice inputSet (n / 2) n;
          Ret (Fork [SPChan s1 limit; SPChan s2 limit] mul2)                       (* 208-219 *)
  end.

(** ** parallel membership provers *)
Inductive pm_task :=
| PMParallel (base : Z) (set : list Z) (limit : Z)            (* concurrent.go:48-98 *)
| PMTable (base : Z) (set : list Z) (limit : Z)               (* concurrent.go:102-171 *)
| PMRandomizer (base randomizer : Z) (set : list Z) (limit : Z)     (* concurrent.go:176-226 *)
| PMRandomizerChan (base randomizer : Z) (set : list Z) (limit : Z) (* concurrent.go:231-284 *)
| PMChan (base : Z) (set : list Z) (limit : Z).               (* concurrent.go:287-313 *)

Definition append_all (vs : list (list Z)) : list Z := concat vs.

Section PM.
Variable N : Z.

(** the quartering code: concurrent.go:59-73 with 80-88 (ProveMembershipParallel), and textually the
    same at 113-127,134-142, at 187-201,208-216 and at 244-258,265-273 *)
Definition quarter (base : Z) (set : list Z) (limit : Z) : outcome (action pm_task (list Z)) :=
  let n := length set in
  do sR <- go_slice set (n / 2) n;
  do sL <- go_slice set 0 (n / 2);
  do sLR <- go_slice set (n / 4) (n / 2);
  do sLL <- go_slice set 0 (n / 4);
  do sRR <- go_slice set (n * 3 / 4) n;
  do sRL <- go_slice set (n / 2) (n * 3 / 4);
  do leftProd <- SetProductRecursiveFast sR;
  do rightProd <- SetProductRecursiveFast sL;
  do leftleftProd <- SetProductRecursiveFast sLR;
  do leftrightProd <- SetProductRecursiveFast sLL;
  do rightleftProd <- SetProductRecursiveFast sRR;
  do rightrightProd <- SetProductRecursiveFast sRL;
  do bases <- multi_exp base N
       [leftProd * leftleftProd; leftProd * leftrightProd;
        rightProd * rightleftProd; rightProd * rightrightProd];
  match bases with
  | [b0; b1; b2; b3] =>
      Ret (Fork [PMChan b0 sLL limit; PMChan b1 sLR limit; PMChan b2 sRL limit; PMChan b3 sRR limit]
                append_all)
  | _ => Panic
  end.

Definition leaf (x : outcome (list Z)) : outcome (action pm_task (list Z)) :=
  do v <- x; Ret (Leaf v).

Definition pm_expand (t : pm_task) : outcome (action pm_task (list Z)) :=
  match t with
  | PMParallel base set limit =>
      if limit <=? 0 then leaf (ProveMembership base N set)                        (* 49-51 *)
      else if (length set <=? 4)%nat then leaf (handleSmallSet base N set)         (* 52-54 *)
      else quarter base set (limit - 2)
  | PMTable base set limit =>
      if limit <=? 0 then leaf (ProveMembership base N set)                        (* 103-105 *)
      else if (length set <=? 4)%nat then leaf (handleSmallSet base N set)         (* 106-108 *)
      else quarter base set (limit - 2)
  | PMRandomizer base randomizer set limit =>
      if limit <=? 0 then leaf (ProveMembershipSingleThreadWithRandomizer base randomizer N set) (* 177-179 *)
      else quarter base set (limit - 2)        (* 180-182 commented out in the source; no randomizer *)
  | PMRandomizerChan base randomizer set limit =>
      if limit <=? 0 then leaf (ProveMembershipSingleThreadWithRandomizer base randomizer N set) (* 232-236 *)
      else quarter base set (limit - 2)
  | PMChan base set limit =>
      if limit <=? 0 then leaf (ProveMembership base N set)                        (* 288-292 *)
      else
        let limit := limit - 1 in                                                  (* 293 *)
        let n := length set in
        if (n <=? 4)%nat then leaf (handleSmallSet base N set)                     (* 294-298 *)
        else
          do s1 <- go_slice set 0 (n / 2);
          do s2 <- go_slice set (n / 2) n;
          do leftProd <- SetProductRecursiveFast s2;
          do rightProd <- SetProductRecursiveFast s1;
          do bases <- multi_exp base N [leftProd; rightProd];                      (* 303 *)
          match bases with
          | [b0; b1] => Ret (Fork [PMChan b0 s1 limit; PMChan b1 s2 limit] append_all) (* 304-312 *)
          | _ => Panic
          end
  end.
End PM.
