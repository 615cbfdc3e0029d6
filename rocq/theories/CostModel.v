(** The functions of AccModel.v and ParModel.v once more, with a record of the arithmetic they do.

    Every function returns its outcome together with the list of the operations executed, in order. The outcomes are
    those of AccModel.v and ParModel.v (theorems *_outcome below), so this file adds the record and nothing else.
    bigfft.Mul and Int.Mul are one [Mul] each; multiexp.DoubleExp, FourfoldExp and FourfoldExpPrecomputed (external
    library) and Int.Exp are one [Exp] per exponent. Simplification: the savings inside multiexp, which shares work between
    its two or four exponents, are not recorded; slicing and appending are not recorded. *)
From Coq Require Import ZArith Bool Lia List.
From Verif Require Import GoBig AccModel AccFacts ForkJoin ParModel.
Import ListNotations.
Open Scope Z_scope.

Inductive op :=
| Mul (a b : Z)   (* an integer product *)
| Exp (e : Z).    (* a modular exponentiation with exponent e *)

Definition costed (A : Type) : Type := (outcome A * list op)%type.
Definition cbind {A B} (m : costed A) (f : A -> costed B) : costed B :=
  match m with
  | (Ret a, l) => let (o, l') := f a in (o, l ++ l')
  | (Panic, l) => (Panic, l)
  | (OutOfFuel, l) => (OutOfFuel, l)
  end.
Notation "'cdo' x <- e ; f" := (cbind e (fun x => f)) (at level 200, x pattern, e at level 100, f at level 200).
Definition free {A} (o : outcome A) : costed A := (o, []).
Definition cmul (a b : Z) : costed Z := (Ret (a * b), [Mul a b]).
Definition cexp (base N : Z) (es : list Z) : costed (list Z) := (multi_exp base N es, map Exp es).

(** common.go:154-158, 108-110, 119-121, 132-134: the loop over a slice *)
Fixpoint c_loop (acc : Z) (l : list Z) : costed Z :=
  match l with
  | [] => free (Ret acc)
  | x :: r => cdo acc' <- cmul acc x; c_loop acc' r
  end.

(** common.go:151-166 SetProductRecursiveFast; common.go:127-148 SetProductRecursive does the same operations *)
Fixpoint c_set_product_recursive_fast (fuel : nat) (inputSet : list Z) : costed Z :=
  let n := length inputSet in
  if (n <=? 2)%nat then c_loop 1 inputSet
  else match fuel with
       | O => free OutOfFuel
       | S f =>
           cdo s1 <- free (go_slice inputSet 0 (n / 2));
           cdo s2 <- free (go_slice inputSet (n / 2) n);
           cdo prod1 <- c_set_product_recursive_fast f s1;
           cdo prod2 <- c_set_product_recursive_fast f s2;
           cmul prod1 prod2
       end.
Definition c_SetProductRecursiveFast (inputSet : list Z) : costed Z :=
  c_set_product_recursive_fast (length inputSet) inputSet.

(** accumulator.go:186-222 handleSmallSet *)
Definition c_handleSmallSet (base N : Z) (set : list Z) : costed (list Z) :=
  match set with
  | [x0; x1; x2; x3] =>
      cdo x0x1Prod <- cmul x0 x1;
      cdo x2x3Prod <- cmul x2 x3;
      cdo x0Prod <- cmul x2x3Prod x1;
      cdo x1Prod <- cmul x2x3Prod x0;
      cdo x2Prod <- cmul x0x1Prod x3;
      cdo x3Prod <- cmul x0x1Prod x2;
      cexp base N [x0Prod; x1Prod; x2Prod; x3Prod]
  | [x0; x1; x2] =>
      cdo x0Prod <- cmul x1 x2;
      cdo x1Prod <- cmul x0 x2;
      cdo x2Prod <- cmul x0 x1;
      cdo doubleExp <- cexp base N [x0Prod; x1Prod];
      (Ret (doubleExp ++ [AccumulateNew base x2Prod N]), [Exp x2Prod])
  | [x0; x1] => cexp base N [x1; x0]
  | [_] => free (Ret [base])
  | _ => free Panic
  end.

(** the quartering code up to the exponentiations: accumulator.go:106-119 and the places listed at [quarter] in
    ParModel.v; accumulator.go:75-90 with the randomizer multiplied into the two halves *)
Definition c_bases (rand : option Z) (base N : Z) (set : list Z) : costed (list Z * (list Z * list Z * list Z * list Z)) :=
  let n := length set in
  cdo sR <- free (go_slice set (n / 2) n);
  cdo sL <- free (go_slice set 0 (n / 2));
  cdo sLR <- free (go_slice set (n / 4) (n / 2));
  cdo sLL <- free (go_slice set 0 (n / 4));
  cdo sRR <- free (go_slice set (n * 3 / 4) n);
  cdo sRL <- free (go_slice set (n / 2) (n * 3 / 4));
  cdo leftProd0 <- c_SetProductRecursiveFast sR;
  cdo rightProd0 <- c_SetProductRecursiveFast sL;
  cdo leftProd <- match rand with Some r => cmul leftProd0 r | None => free (Ret leftProd0) end;
  cdo rightProd <- match rand with Some r => cmul rightProd0 r | None => free (Ret rightProd0) end;
  cdo leftleftProd <- c_SetProductRecursiveFast sLR;
  cdo leftrightProd <- c_SetProductRecursiveFast sLL;
  cdo rightleftProd <- c_SetProductRecursiveFast sRR;
  cdo rightrightProd <- c_SetProductRecursiveFast sRL;
  cdo e0 <- cmul leftProd leftleftProd;
  cdo e1 <- cmul leftProd leftrightProd;
  cdo e2 <- cmul rightProd rightleftProd;
  cdo e3 <- cmul rightProd rightrightProd;
  cdo bases <- cexp base N [e0; e1; e2; e3];
  free (Ret (bases, (sLL, sLR, sRL, sRR))).

(** accumulator.go:100-125 ProveMembership *)
Fixpoint c_prove_membership (fuel : nat) (base N : Z) (set : list Z) : costed (list Z) :=
  if (length set <=? 4)%nat then c_handleSmallSet base N set
  else match fuel with
       | O => free OutOfFuel
       | S f =>
           cdo (bases, (sLL, sLR, sRL, sRR)) <- c_bases None base N set;
           match bases with
           | [b0; b1; b2; b3] =>
               cdo p0 <- c_prove_membership f b0 N sLL;
               cdo p1 <- c_prove_membership f b1 N sLR;
               cdo p2 <- c_prove_membership f b2 N sRL;
               cdo p3 <- c_prove_membership f b3 N sRR;
               free (Ret (p0 ++ p1 ++ p2 ++ p3))
           | _ => free Panic
           end
       end.
Definition c_ProveMembership (base N : Z) (set : list Z) : costed (list Z) :=
  c_prove_membership (length set) base N set.

(** accumulator.go:73-97 ProveMembershipSingleThreadWithRandomizer *)
Definition c_ProveMembershipSingleThreadWithRandomizer (base randomizer N : Z) (set : list Z) : costed (list Z) :=
  cdo (bases, (sLL, sLR, sRL, sRR)) <- c_bases (Some randomizer) base N set;
  match bases with
  | [b0; b1; b2; b3] =>
      cdo p0 <- c_ProveMembership b0 N sLL;
      cdo p1 <- c_ProveMembership b1 N sLR;
      cdo p2 <- c_ProveMembership b2 N sRL;
      cdo p3 <- c_ProveMembership b3 N sRR;
      free (Ret (p0 ++ p1 ++ p2 ++ p3))
  | _ => free Panic
  end.

(** ** the goroutines of ParModel.v: the operations of one goroutine, not of those it starts *)
Definition c_leaf (x : costed (list Z)) : costed (action pm_task (list Z)) :=
  cdo v <- x; free (Ret (Leaf v)).
Definition c_quarter (N base : Z) (set : list Z) (limit : Z) : costed (action pm_task (list Z)) :=
  cdo (bases, (sLL, sLR, sRL, sRR)) <- c_bases None base N set;
  match bases with
  | [b0; b1; b2; b3] =>
      free (Ret (Fork [PMChan b0 sLL limit; PMChan b1 sLR limit; PMChan b2 sRL limit; PMChan b3 sRR limit] append_all))
  | _ => free Panic
  end.
Definition c_pm_expand (N : Z) (t : pm_task) : costed (action pm_task (list Z)) :=
  match t with
  | PMParallel base set limit | PMTable base set limit =>
      if limit <=? 0 then c_leaf (c_ProveMembership base N set)
      else if (length set <=? 4)%nat then c_leaf (c_handleSmallSet base N set)
      else c_quarter N base set (limit - 2)
  | PMRandomizer base randomizer set limit | PMRandomizerChan base randomizer set limit =>
      if limit <=? 0 then c_leaf (c_ProveMembershipSingleThreadWithRandomizer base randomizer N set)
      else c_quarter N base set (limit - 2)
  | PMChan base set limit =>
      if limit <=? 0 then c_leaf (c_ProveMembership base N set)
      else
        let n := length set in
        if (n <=? 4)%nat then c_leaf (c_handleSmallSet base N set)
        else
          cdo s1 <- free (go_slice set 0 (n / 2));
          cdo s2 <- free (go_slice set (n / 2) n);
          cdo leftProd <- c_SetProductRecursiveFast s2;
          cdo rightProd <- c_SetProductRecursiveFast s1;
          cdo bases <- cexp base N [leftProd; rightProd];
          match bases with
          | [b0; b1] => free (Ret (Fork [PMChan b0 s1 (limit - 1); PMChan b1 s2 (limit - 1)] append_all))
          | _ => free Panic
          end
  end.

(** ** the record changes no outcome *)
Lemma cbind_outcome : forall A B (m : costed A) (f : A -> costed B) (o : outcome A) (g : A -> outcome B),
  fst m = o -> (forall a, fst (f a) = g a) -> fst (cbind m f) = bind o g.
Proof.
  intros A B [[a| |] l] f o g <- H; cbn [cbind fst bind]; [|reflexivity..].
  rewrite <- H. destruct (f a). reflexivity.
Qed.
Lemma c_loop_outcome : forall l acc, fst (c_loop acc l) = Ret (fold_left Z.mul l acc).
Proof.
  induction l as [|x l IH]; intros acc; [reflexivity|]. cbn [c_loop fold_left]. unfold cmul. cbn [cbind].
  rewrite <- IH. destruct (c_loop (acc * x) l). reflexivity.
Qed.
Lemma c_set_product_recursive_fast_outcome : forall f l, fst (c_set_product_recursive_fast f l) = set_product_recursive_fast f l.
Proof.
  induction f as [|f IH]; intros l; cbn [c_set_product_recursive_fast set_product_recursive_fast];
    (destruct (_ <=? _)%nat; [apply c_loop_outcome|]); [reflexivity|].
  repeat (apply cbind_outcome; [reflexivity || apply IH|intros]). reflexivity.
Qed.
Theorem c_SetProductRecursiveFast_outcome : forall l, fst (c_SetProductRecursiveFast l) = SetProductRecursiveFast l.
Proof. intros l. apply c_set_product_recursive_fast_outcome. Qed.
Theorem c_handleSmallSet_outcome : forall base N set, fst (c_handleSmallSet base N set) = handleSmallSet base N set.
Proof.
  intros base N [|x0 [|x1 [|x2 [|x3 [|x4 set]]]]]; try reflexivity.
  unfold c_handleSmallSet, handleSmallSet, cmul, cexp. cbn [cbind fst]. destruct (multi_exp _ _ _); reflexivity.
Qed.
Lemma cbind_assoc : forall A B C (m : costed A) (f : A -> costed B) (g : B -> costed C),
  fst (cbind (cbind m f) g) = fst (cbind m (fun a => cbind (f a) g)).
Proof.
  intros A B C [[a| |] l] f g; cbn [cbind]; [|reflexivity..]. destruct (f a) as [[b| |] l']; cbn [cbind]; [|reflexivity..]. destruct (g b). reflexivity.
Qed.
Lemma cmul_outcome : forall A a b (f : Z -> costed A), fst (cbind (cmul a b) f) = fst (f (a * b)).
Proof. intros A a b f. unfold cmul. cbn [cbind]. destruct (f (a * b)). reflexivity. Qed.
Lemma free_outcome : forall A B (a : A) (f : A -> costed B), fst (cbind (free (Ret a)) f) = fst (f a).
Proof. intros A B a f. unfold free. cbn [cbind]. destruct (f a). reflexivity. Qed.
Ltac same :=
  repeat first
    [ reflexivity
    | apply c_SetProductRecursiveFast_outcome
    | apply c_handleSmallSet_outcome
    | rewrite cbind_assoc
    | rewrite cmul_outcome
    | rewrite free_outcome
    | match goal with |- fst (cbind _ _) = bind _ _ => apply cbind_outcome; [|intros] end
    | match goal with |- fst (match ?l with [] => _ | _ :: _ => _ end) = _ => destruct l end ].
Lemma c_prove_membership_outcome : forall f base N set, fst (c_prove_membership f base N set) = prove_membership f base N set.
Proof.
  induction f as [|f IH]; intros base N set; cbn [c_prove_membership prove_membership];
    (destruct (_ <=? _)%nat; [apply c_handleSmallSet_outcome|]); [reflexivity|].
  unfold c_bases. same; apply IH.
Qed.
Theorem c_ProveMembership_outcome : forall base N set, fst (c_ProveMembership base N set) = ProveMembership base N set.
Proof. intros base N set. apply c_prove_membership_outcome. Qed.
Theorem c_Randomizer_outcome : forall base r N set,
  fst (c_ProveMembershipSingleThreadWithRandomizer base r N set) = ProveMembershipSingleThreadWithRandomizer base r N set.
Proof.
  intros base r N set. unfold c_ProveMembershipSingleThreadWithRandomizer, ProveMembershipSingleThreadWithRandomizer, c_bases.
  rewrite !go_slice_ret by lia. cbn [bind]. same; apply c_ProveMembership_outcome.
Qed.
Theorem c_pm_expand_outcome : forall N t, fst (c_pm_expand N t) = pm_expand N t.
Proof.
  assert (L : forall m o, fst m = o -> fst (c_leaf m) = leaf o) by (intros m o H; apply cbind_outcome; [exact H|reflexivity]).
  assert (Q : forall N base set limit, fst (c_quarter N base set limit) = quarter N base set limit).
  { intros. unfold c_quarter, quarter, c_bases. same. }
  intros N t. destruct t as [base set limit|base set limit|base r set limit|base r set limit|base set limit]; cbn [c_pm_expand pm_expand];
    (destruct (limit <=? 0); [apply L; first [apply c_ProveMembership_outcome|apply c_Randomizer_outcome]|]);
    try apply Q; (destruct (_ <=? _)%nat; [apply L, c_handleSmallSet_outcome|]); try apply Q.
  same.
Qed.
