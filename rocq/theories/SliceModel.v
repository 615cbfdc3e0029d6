(** The membership provers of /repo/accumulator with Go's slices spelled out.

    A slice is a pointer into an array, a length and a capacity, and a sub-slice set[a:b] of set shares
    the array of set, its capacity reaching to the end of that array. [append] writes into the array of
    its first argument when the capacity allows it and otherwise copies everything into a new array,
    whose capacity is the business of the Go runtime. AccModel.v and ParModel.v read [append] as list
    concatenation; here every array, every offset and every capacity is in the state, the runtime's
    choice of capacities ([grow]) is arbitrary, and every read and write of an array cell is recorded,
    so that a [append] reaching into the caller's array would be seen.

    The cells of the arrays are *big.Int: nil or a number. Which numbers share their words is the
    subject of OwnModel.v; here a number is its value. bigfft.Mul and the exponentiations of multiexp
    (external) are as in AccModel.v; the arrays [4]*big.Int and [2]*big.Int returned by FourfoldExp and
    DoubleExp are new. *)
From Coq Require Import ZArith Bool List.
From Verif Require Import GoBig AccModel.
Import ListNotations.
Open Scope nat_scope.

Definition cell := option Z.
Definition heap := list (list cell).
Record hdr := Hdr { h_arr : nat; h_off : nat; h_len : nat; h_cap : nat }.

(** what a goroutine did to array [a] at index [i]; [Race] is what a race detector would report *)
Inductive access := Rd (a i : nat) | Wr (a i : nat) | Race.

Definition array (h : heap) (a : nat) : list cell := nth a h [].

(** the contents of a slice *)
Definition view (h : heap) (s : hdr) : list cell := firstn (h_len s) (skipn (h_off s) (array h (h_arr s))).

(** what every slice of a running program satisfies; a nil slice has capacity 0 *)
Definition wf (h : heap) (s : hdr) : Prop :=
  h_len s <= h_cap s /\ (h_cap s = 0 \/ h_off s + h_cap s <= length (array h (h_arr s))).
(** cell [i] of array [a] is one of the elements of [s] *)
Definition inside (s : hdr) (a i : nat) : Prop := a = h_arr s /\ h_off s <= i < h_off s + h_len s.

(** ** computations on arrays, with the accesses they make *)
Definition M (A : Type) := heap -> outcome (A * heap * list access).
Definition ret {A} (a : A) : M A := fun h => Ret (a, h, []).
Definition fail {A} : M A := fun _ => Panic.
Definition lift {A} (o : outcome A) : M A := fun h => do a <- o; Ret (a, h, []).
Definition mbind {A B} (f : M A) (g : A -> M B) : M B := fun h =>
  do (a, h1, l1) <- f h;
  do (b, h2, l2) <- g a h1;
  Ret (b, h2, l1 ++ l2).
Notation "'mdo' x <- e1 ; e2" := (mbind e1 (fun x => e2))
  (at level 200, x pattern, e1 at level 100, e2 at level 200, right associativity).

(** the cells [i], ..., [i + n - 1] of array [a] *)
Definition reads (a i n : nat) : list access := map (Rd a) (seq i n).
Definition writes (a i n : nat) : list access := map (Wr a) (seq i n).

(** s[i], nil allowed *)
Definition get (s : hdr) (i : nat) : M cell := fun h =>
  if i <? h_len s then Ret (nth (h_off s + i) (array h (h_arr s)) None, h, reads (h_arr s) (h_off s + i) 1)
  else Panic.
(** s[i] used as a number *)
Definition getz (s : hdr) (i : nat) : M Z := mdo c <- get s i; lift (deref c).

(** s[i:j]: j may go up to the capacity *)
Definition reslice (s : hdr) (i j : nat) : M hdr := fun h =>
  if (i <=? j) && (j <=? h_cap s) then Ret (Hdr (h_arr s) (h_off s + i) (j - i) (h_cap s - i), h, []) else Panic.
(** s[i:] *)
Definition from (s : hdr) (i : nat) : M hdr := reslice s i (h_len s).

(** overwriting the cells of array [a] from [i] on *)
Definition overwrite (l : list cell) (i : nat) (vs : list cell) : list cell :=
  firstn i l ++ vs ++ skipn (i + length vs) l.
Definition update (h : heap) (a i : nat) (vs : list cell) : heap :=
  firstn a h ++ overwrite (array h a) i vs :: skipn (S a) h.
Definition write (a i : nat) (vs : list cell) : M unit := fun h =>
  Ret (tt, update h a i vs, writes a i (length vs)).

(** s[i] = v *)
Definition put (s : hdr) (i : nat) (v : cell) : M unit :=
  if i <? h_len s then write (h_arr s) (h_off s + i) [v] else fail.

(** make([]*big.Int, n, c): every cell nil; make panics when n > c *)
Definition make (n c : nat) : M hdr := fun h =>
  if n <=? c then Ret (Hdr (length h) 0 n c, h ++ [repeat None c], []) else Panic.

(** a new array with the given contents, and the slice of the whole of it *)
Definition new_array (l : list cell) : M hdr := fun h =>
  Ret (Hdr (length h) 0 (length l) (length l), h ++ [l], writes (length h) 0 (length l)).

(** all of a slice, as the copying of [append] and [copy] reads it *)
Definition read_all (s : hdr) : M (list cell) := fun h =>
  Ret (view h s, h, reads (h_arr s) (h_off s) (h_len s)).

(** two goroutines, started together and waited for: the heap is threaded through them one after the
    other, and [Race] is recorded when one writes a cell the other reads or writes (array names are
    handed out in the order of this run; which name a new array gets does not matter to Go) *)
Definition clash (x y : access) : bool :=
  match x, y with
  | Wr a i, Wr b j | Wr a i, Rd b j | Rd a i, Wr b j => (a =? b) && (i =? j)
  | _, _ => false
  end.
Definition conflict (l1 l2 : list access) : bool := existsb (fun x => existsb (clash x) l2) l1.
Definition par {A B} (f : M A) (g : M B) : M (A * B) := fun h =>
  do (a, h1, l1) <- f h;
  do (b, h2, l2) <- g h1;
  Ret ((a, b), h2, l1 ++ l2 ++ if conflict l1 l2 then [Race] else []).

Section Slices.
(** the capacity the runtime picks when an array of capacity [c] must hold [n] elements (at least n) *)
Variable grow : nat -> nat -> nat.

(** append(s, vs...) *)
Definition append (s : hdr) (vs : list cell) : M hdr :=
  let n := h_len s + length vs in
  if n <=? h_cap s
  then mdo _ <- write (h_arr s) (h_off s + h_len s) vs;
       ret (Hdr (h_arr s) (h_off s) n (h_cap s))
  else mdo old <- read_all s;
       let c := Nat.max n (grow (h_cap s) n) in
       mdo r <- new_array (old ++ vs ++ repeat None (c - n));
       ret (Hdr (h_arr r) 0 n c).
(** append(s, t...) *)
Definition append_slice (s t : hdr) : M hdr := mdo vs <- read_all t; append s vs.

(** common.go:151-166 SetProductRecursiveFast; the fuel bounds the recursion depth *)
Fixpoint mul_from (acc : Z) (s : hdr) (i k : nat) : M Z :=             (* 156-158 *)
  match k with
  | O => ret acc
  | S k' => mdo v <- getz s i; mul_from (acc * v)%Z s (S i) k'
  end.
Fixpoint set_product_sl (fuel : nat) (s : hdr) : M Z :=
  let n := h_len s in
  if n <=? 2 then mul_from 1%Z s 0 n
  else match fuel with
       | O => lift OutOfFuel
       | S f =>
           mdo s1 <- reslice s 0 (n / 2);                              (* 162 *)
           mdo prod1 <- set_product_sl f s1;
           mdo s2 <- from s (n / 2);                                   (* 163 *)
           mdo prod2 <- set_product_sl f s2;
           ret (prod1 * prod2)%Z
       end.
Definition SetProductRecursiveFast_sl (s : hdr) : M Z := set_product_sl (h_len s) s.

(** FourfoldExp, DoubleExp and the slice of the whole returned array *)
Definition exps (base N : Z) (es : list Z) : M hdr :=
  mdo vs <- lift (multi_exp base N es); new_array (map Some vs).

(** accumulator.go:186-222 handleSmallSet *)
Definition handleSmallSet_sl (base N : Z) (s : hdr) : M hdr :=
  match h_len s with
  | 4 =>
      mdo a0 <- getz s 0; mdo a1 <- getz s 1; let x0x1Prod := (a0 * a1)%Z in    (* 189 *)
      mdo a2 <- getz s 2; mdo a3 <- getz s 3; let x2x3Prod := (a2 * a3)%Z in    (* 190 *)
      mdo b1 <- getz s 1; let x0Prod := (x2x3Prod * b1)%Z in                    (* 191 *)
      mdo b0 <- getz s 0; let x1Prod := (x2x3Prod * b0)%Z in                    (* 192 *)
      mdo b3 <- getz s 3; let x2Prod := (x0x1Prod * b3)%Z in                    (* 193 *)
      mdo b2 <- getz s 2; let x3Prod := (x0x1Prod * b2)%Z in                    (* 194 *)
      exps base N [x0Prod; x1Prod; x2Prod; x3Prod]                              (* 195-196 *)
  | 3 =>
      mdo a1 <- getz s 1; mdo a2 <- getz s 2; let x0Prod := (a1 * a2)%Z in      (* 200 *)
      mdo a0 <- getz s 0; mdo b2 <- getz s 2; let x1Prod := (a0 * b2)%Z in      (* 201 *)
      mdo b0 <- getz s 0; mdo b1 <- getz s 1; let x2Prod := (b0 * b1)%Z in      (* 202 *)
      mdo r <- exps base N [x0Prod; x1Prod];                                    (* 203-204 *)
      append r [Some (AccumulateNew base x2Prod N)]                             (* 205-206 *)
  | 2 =>
      mdo a1 <- getz s 1; mdo a0 <- getz s 0; exps base N [a1; a0]              (* 209-210 *)
  | 1 =>
      mdo r <- make 1 1; mdo _ <- put r 0 (Some base); ret r                    (* 213-216 *)
  | _ => fail                                                                   (* 219-221 *)
  end.

(** the products and exponentiations shared by accumulator.go:75-90, 106-119 and by the four parallel
    functions (concurrent.go:60-73, 114-127, 188-201, 245-258); [r] is the randomizer, 1 where there is
    none *)
Definition four_bases (base r N : Z) (s : hdr) : M hdr :=
  let n := h_len s in
  mdo sR <- from s (n / 2);                   mdo leftProd0 <- SetProductRecursiveFast_sl sR;
  mdo sL <- reslice s 0 (n / 2);              mdo rightProd0 <- SetProductRecursiveFast_sl sL;
  let leftProd := (leftProd0 * r)%Z in
  let rightProd := (rightProd0 * r)%Z in
  mdo sLR <- reslice s (n / 4) (n / 2);       mdo leftleftProd <- SetProductRecursiveFast_sl sLR;
  mdo sLL <- reslice s 0 (n / 4);             mdo leftrightProd <- SetProductRecursiveFast_sl sLL;
  mdo sRR <- from s (n * 3 / 4);              mdo rightleftProd <- SetProductRecursiveFast_sl sRR;
  mdo sRL <- reslice s (n / 2) (n * 3 / 4);   mdo rightrightProd <- SetProductRecursiveFast_sl sRL;
  exps base N [leftProd * leftleftProd; leftProd * leftrightProd;
               rightProd * rightleftProd; rightProd * rightrightProd]%Z.

(** accumulator.go:120-124: four calls and three appends, as the right operands are evaluated *)
Definition four_calls (call : Z -> hdr -> M hdr) (bases s : hdr) : M hdr :=
  let n := h_len s in
  mdo b0 <- getz bases 0; mdo s0 <- reslice s 0 (n / 4);           mdo p0 <- call b0 s0;
  mdo b1 <- getz bases 1; mdo s1 <- reslice s (n / 4) (n / 2);     mdo q1 <- call b1 s1;
  mdo p1 <- append_slice p0 q1;
  mdo b2 <- getz bases 2; mdo s2 <- reslice s (n / 2) (n * 3 / 4); mdo q2 <- call b2 s2;
  mdo p2 <- append_slice p1 q2;
  mdo b3 <- getz bases 3; mdo s3 <- from s (n * 3 / 4);            mdo q3 <- call b3 s3;
  append_slice p2 q3.

(** accumulator.go:100-125 ProveMembership; the fuel bounds the recursion depth *)
Fixpoint prove_membership_sl (fuel : nat) (N : Z) (base : Z) (s : hdr) : M hdr :=
  if h_len s <=? 4 then handleSmallSet_sl base N s                              (* 102-104 *)
  else match fuel with
       | O => lift OutOfFuel
       | S f => mdo bases <- four_bases base 1 N s; four_calls (prove_membership_sl f N) bases s
       end.
Definition ProveMembership_sl (N base : Z) (s : hdr) : M hdr := prove_membership_sl (h_len s) N base s.

(** accumulator.go:73-97 ProveMembershipSingleThreadWithRandomizer *)
Definition SingleThreadWithRandomizer_sl (N base randomizer : Z) (s : hdr) : M hdr :=
  mdo bases <- four_bases base randomizer N s; four_calls (ProveMembership_sl N) bases s.

(** concurrent.go:287-313 proveMembershipWithChan; the fuel bounds the recursion depth *)
Fixpoint with_chan_sl (fuel : nat) (N : Z) (limit : Z) (base : Z) (s : hdr) : M hdr :=
  if (limit <=? 0)%Z then ProveMembership_sl N base s                           (* 288-292 *)
  else
    let limit := (limit - 1)%Z in                                               (* 293 *)
    if h_len s <=? 4 then handleSmallSet_sl base N s                            (* 294-298 *)
    else match fuel with
         | O => lift OutOfFuel
         | S f =>
             let n := h_len s in
             mdo sR <- from s (n / 2);        mdo leftProd <- SetProductRecursiveFast_sl sR;
             mdo sL <- reslice s 0 (n / 2);   mdo rightProd <- SetProductRecursiveFast_sl sL;
             mdo bases <- exps base N [leftProd; rightProd];                    (* 303 *)
             mdo b0 <- getz bases 0; mdo s1 <- reslice s 0 (n / 2);             (* 306 *)
             mdo b1 <- getz bases 1; mdo s2 <- from s (n / 2);                  (* 307 *)
             mdo (proofs1, proofs2) <- par (with_chan_sl f N limit b0 s1) (with_chan_sl f N limit b1 s2);
             append_slice proofs1 proofs2                                       (* 310-311 *)
         end.
Definition WithChan_sl (N limit base : Z) (s : hdr) : M hdr := with_chan_sl (h_len s) N limit base s.

(** the four goroutines of concurrent.go:80-97, 134-151, 208-225 and 265-282 *)
Definition four_goroutines (N limit : Z) (bases s : hdr) : M hdr :=
  let n := h_len s in
  mdo b0 <- getz bases 0; mdo s0 <- reslice s 0 (n / 4);
  mdo b1 <- getz bases 1; mdo s1 <- reslice s (n / 4) (n / 2);
  mdo b2 <- getz bases 2; mdo s2 <- reslice s (n / 2) (n * 3 / 4);
  mdo b3 <- getz bases 3; mdo s3 <- from s (n * 3 / 4);
  mdo (proofs1, proofs2, proofs3, proofs4) <-
    par (par (par (WithChan_sl N limit b0 s0) (WithChan_sl N limit b1 s1))
             (WithChan_sl N limit b2 s2)) (WithChan_sl N limit b3 s3);
  mdo p1 <- append_slice proofs1 proofs2;
  mdo p2 <- append_slice p1 proofs3;
  append_slice p2 proofs4.

(** concurrent.go:48-98 ProveMembershipParallel and, with a table, 102-171 *)
Definition ProveMembershipParallel_sl (N base : Z) (s : hdr) (limit : Z) : M hdr :=
  if (limit <=? 0)%Z then ProveMembership_sl N base s
  else if h_len s <=? 4 then handleSmallSet_sl base N s
  else mdo bases <- four_bases base 1 N s; four_goroutines N (limit - 2) bases s.

(** concurrent.go:176-226 ProveMembershipParallelWithTableWithRandomizer and, sending the slice over a
    channel, 231-284 *)
Definition ParallelWithRandomizer_sl (N base randomizer : Z) (s : hdr) (limit : Z) : M hdr :=
  if (limit <=? 0)%Z then SingleThreadWithRandomizer_sl N base randomizer s
  else mdo bases <- four_bases base 1 N s; four_goroutines N (limit - 2) bases s.

(** accumulator.go:162-166 and concurrent.go:426-430, the end of both iterative functions: the proofs of
    the linked list, appended one by one to make([]*big.Int, 0, len(set)) *)
Fixpoint append_each (s : hdr) (vs : list cell) : M hdr :=
  match vs with
  | [] => ret s
  | v :: vs' => mdo s' <- append s [v]; append_each s' vs'
  end.
Definition gather (n : nat) (proofs : list cell) : M hdr :=
  mdo s <- make 0 n; append_each s proofs.

(** copy(dst, src) *)
Definition copy (dst src : hdr) : M unit :=
  mdo vs <- read_all src;
  write (h_arr dst) (h_off dst) (firstn (h_len dst) vs).

(** concurrent.go:351-354, the goroutine that puts the workers' results together: [rs] are the structs
    parallelReceiver in the order in which they arrive *)
Fixpoint receive (proofs : hdr) (rs : list (nat * nat * hdr)) : M unit :=
  match rs with
  | [] => ret tt
  | (lo, hi, p) :: rs' =>
      mdo d <- reslice proofs lo hi;
      mdo _ <- copy d p;
      receive proofs rs'
  end.
Definition collector (n : nat) (rs : list (nat * nat * hdr)) : M hdr :=
  mdo proofs <- make n n;
  mdo _ <- receive proofs rs;
  ret proofs.

(** genRep.go:9-15 and 17-26: a slice made with the length of the set, filled from the left *)
Fixpoint fill (s : hdr) (i : nat) (vs : list Z) : M unit :=
  match vs with
  | [] => ret tt
  | v :: vs' => mdo _ <- put s i (Some v); fill s (S i) vs'
  end.
Definition representatives (vs : list Z) : M hdr :=
  mdo s <- make (length vs) (length vs);
  mdo _ <- fill s 0 vs;
  ret s.

(** experiments/finaltests.go:546-555 and 691-700: the representatives of the unchanged users, the set
    after the update (its proofs are computed in between, at 551 with limit 0 and at 696 with limit 5),
    and the set before the update, both appended to the same slice; [prove] is the call at 551 or 696 *)
Definition two_sets (prove : hdr -> M hdr) (unchanged : list Z) (insertSet removeSet : hdr)
  : M (hdr * hdr * hdr) :=
  mdo u <- representatives unchanged;                     (* 547 *)
  mdo u' <- reslice u 0 (h_len u);                        (* 549: unchanged[:] *)
  mdo newSet1 <- append_slice u' insertSet;               (* 549 *)
  mdo arg <- reslice newSet1 0 (h_len newSet1);           (* 551: newSet1[:] *)
  mdo proofs <- prove arg;                                (* 551, 696 *)
  mdo original <- append_slice u removeSet;               (* 555 *)
  ret (newSet1, proofs, original).
End Slices.
