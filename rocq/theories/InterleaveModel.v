(** The membership provers of /repo/accumulator with slices, run by a scheduler that may switch between
    goroutines before every single access to an array cell.

    SliceModel.v runs two goroutines one after the other and records whether they raced. Here a program is
    a tree of array accesses, a goroutine is a branch of it, and a schedule says which goroutine makes the
    next access. Arrays are named in the order in which this schedule creates them.

    The functions are those of SliceModel.v, statement by statement, with two differences. First, filling
    a new array, the copying of [append] and the writing of [append] happen one cell at a time. Second, the
    goroutine that executes the go statements runs on while the goroutines it has started are already
    running, and it waits for them where it receives from their channels.
    What a channel does is only this waiting: every channel of these functions carries one value. *)
From Coq Require Import ZArith Bool List.
From Verif Require Import GoBig AccModel SliceModel.
Import ListNotations.
Open Scope nat_scope.

(** a goroutine: finished with a result, stopped by a panic, about to read or write cell [i] of array [a],
    about to make an array of [n] nil cells, or waiting for two goroutines *)
Inductive prog (A : Type) : Type :=
| PRet (x : A)
| PStop
| PRead (a i : nat) (k : cell -> prog A)
| PWrite (a i : nat) (v : cell) (k : prog A)
| PNew (n : nat) (k : nat -> prog A)
| PPar (B C : Type) (p : prog B) (q : prog C) (k : B -> C -> prog A).
Arguments PRet {A} x. Arguments PStop {A}. Arguments PRead {A} a i k. Arguments PWrite {A} a i v k.
Arguments PNew {A} n k. Arguments PPar {A B C} p q k.

Fixpoint pbind {A B} (p : prog A) (f : A -> prog B) : prog B :=
  match p with
  | PRet x => f x
  | PStop => PStop
  | PRead a i k => PRead a i (fun v => pbind (k v) f)
  | PWrite a i v k => PWrite a i v (pbind k f)
  | PNew n k => PNew n (fun a => pbind (k a) f)
  | PPar p q k => PPar p q (fun b c => pbind (k b c) f)
  end.
Notation "'pdo' x <- e1 ; e2" := (pbind e1 (fun x => e2))
  (at level 200, x pattern, e1 at level 100, e2 at level 200, right associativity).

(** ** schedules *)
Definition cell_at (h : heap) (a i : nat) : option cell := nth_error (array h a) i.

(** the next step of the goroutine that [w] leads to: left ([true]) or right ([false]) at every branching.
    None: there is no such goroutine, or it is finished, stopped, or out of the bounds of an array. *)
Fixpoint step {A} (p : prog A) (w : list bool) (h : heap) : option (prog A * heap) :=
  match p with
  | PRet _ => None
  | PStop => None
  | PRead a i k => match cell_at h a i with Some v => Some (k v, h) | None => None end
  | PWrite a i v k => match cell_at h a i with Some _ => Some (k, update h a i [v]) | None => None end
  | PNew n k => Some (k (length h), h ++ [repeat None n])
  | PPar p q k =>
      match p, q with
      | PRet b, PRet c => Some (k b c, h)
      | _, _ =>
          match w with
          | [] => None
          | true :: w' => match step p w' h with Some (p', h') => Some (PPar p' q k, h') | None => None end
          | false :: w' => match step q w' h with Some (q', h') => Some (PPar p q' k, h') | None => None end
          end
      end
  end.

(** what some schedule leads to *)
Inductive reaches {A} (p : prog A) (h : heap) : prog A -> heap -> Prop :=
| rc_start : reaches p h p h
| rc_step : forall p1 h1 w p2 h2, reaches p h p1 h1 -> step p1 w h1 = Some (p2, h2) -> reaches p h p2 h2.

(** the accesses that some goroutine is about to make *)
Fixpoint nexts {A} (p : prog A) : list access :=
  match p with
  | PRet _ | PStop | PNew _ _ => []
  | PRead a i _ => [Rd a i]
  | PWrite a i _ _ => [Wr a i]
  | PPar p q _ => nexts p ++ nexts q
  end.
(** two different goroutines are about to access the same cell, and one of them is about to write it *)
Fixpoint racing {A} (p : prog A) : Prop :=
  match p with
  | PPar p q _ => racing p \/ racing q \/ conflict (nexts p) (nexts q) = true
  | _ => False
  end.
(** some goroutine has panicked *)
Fixpoint panicked {A} (p : prog A) : Prop :=
  match p with
  | PStop => True
  | PPar p q _ => panicked p \/ panicked q
  | _ => False
  end.

(** ** slices *)
Definition plift {A} (o : outcome A) : prog A := match o with Ret x => PRet x | _ => PStop end.

(** s[i], s[i] used as a number, s[i:j], s[i:] *)
Definition pget (s : hdr) (i : nat) : prog cell :=
  if i <? h_len s then PRead (h_arr s) (h_off s + i) PRet else PStop.
Definition pgetz (s : hdr) (i : nat) : prog Z := pdo c <- pget s i; plift (deref c).
Definition preslice (s : hdr) (i j : nat) : prog hdr :=
  if (i <=? j) && (j <=? h_cap s) then PRet (Hdr (h_arr s) (h_off s + i) (j - i) (h_cap s - i)) else PStop.
Definition pfrom (s : hdr) (i : nat) : prog hdr := preslice s i (h_len s).

(** cell by cell: the cells [i], [i+1], ... of array [a] *)
Fixpoint pwrite (a i : nat) (vs : list cell) : prog unit :=
  match vs with
  | [] => PRet tt
  | v :: vs' => PWrite a i v (pwrite a (S i) vs')
  end.
Fixpoint pread (a i n : nat) : prog (list cell) :=
  match n with
  | O => PRet []
  | S n' => PRead a i (fun v => pdo vs <- pread a (S i) n'; PRet (v :: vs))
  end.

(** s[i] = v; make([]*big.Int, n, c); a new array with the given contents; all of a slice *)
Definition pput (s : hdr) (i : nat) (v : cell) : prog unit :=
  if i <? h_len s then pwrite (h_arr s) (h_off s + i) [v] else PStop.
Definition pmake (n c : nat) : prog hdr := if n <=? c then PNew c (fun a => PRet (Hdr a 0 n c)) else PStop.
Definition pnew_array (l : list cell) : prog hdr :=
  PNew (length l) (fun a => pdo _ <- pwrite a 0 l; PRet (Hdr a 0 (length l) (length l))).
Definition pread_all (s : hdr) : prog (list cell) := pread (h_arr s) (h_off s) (h_len s).

(** go f(...); rest; receive *)
Definition ppar {A B} (p : prog A) (q : prog B) : prog (A * B) := PPar p q (fun b c => PRet (b, c)).

(** common.go:151-166 SetProductRecursiveFast; the fuel bounds the recursion depth *)
Fixpoint pmul_from (acc : Z) (s : hdr) (i k : nat) : prog Z :=         (* 156-158 *)
  match k with
  | O => PRet acc
  | S k' => pdo v <- pgetz s i; pmul_from (acc * v)%Z s (S i) k'
  end.
Fixpoint set_product_p (fuel : nat) (s : hdr) : prog Z :=
  let n := h_len s in
  if n <=? 2 then pmul_from 1%Z s 0 n
  else match fuel with
       | O => PStop
       | S f =>
           pdo s1 <- preslice s 0 (n / 2);                             (* 162 *)
           pdo prod1 <- set_product_p f s1;
           pdo s2 <- pfrom s (n / 2);                                  (* 163 *)
           pdo prod2 <- set_product_p f s2;
           PRet (prod1 * prod2)%Z
       end.
Definition SetProductRecursiveFast_p (s : hdr) : prog Z := set_product_p (h_len s) s.

(** common.go:170-191 SetProductParallel and 194-220 setProductParallelWithChan, which differ in how the
    result is handed over; the fuel bounds the recursion depth *)
Fixpoint product_parallel_p (fuel : nat) (s : hdr) (limit : Z) : prog Z :=
  if (limit =? 0)%Z then SetProductRecursiveFast_p s                   (* 171-173, 195-199 *)
  else
    let limit := (limit - 1)%Z in                                      (* 174, 200 *)
    let n := h_len s in
    if n <=? 2 then SetProductRecursiveFast_p s                        (* 176-178, 202-206 *)
    else match fuel with
         | O => PStop
         | S f =>
             pdo s1 <- preslice s 0 (n / 2);                           (* 182, 210 *)
             pdo (prod1, prod2) <-
               ppar (product_parallel_p f s1 limit)
                    (pdo s2 <- pfrom s (n / 2);                        (* 183, 211 *)
                     product_parallel_p f s2 limit);
             PRet (prod1 * prod2)%Z                                    (* 184-191, 212-219 *)
         end.
Definition SetProductParallel_p (s : hdr) (limit : Z) : prog Z := product_parallel_p (h_len s) s limit.

(** FourfoldExp, DoubleExp (multiexp, external) and the slice of the whole returned array *)
Definition pexps (base N : Z) (es : list Z) : prog hdr :=
  pdo vs <- plift (multi_exp base N es); pnew_array (map Some vs).

Section Interleave.
(** the capacity the runtime picks when an array of capacity [c] must hold [n] elements (at least n) *)
Variable grow : nat -> nat -> nat.

(** append(s, vs...) and append(s, t...) *)
Definition pappend (s : hdr) (vs : list cell) : prog hdr :=
  let n := h_len s + length vs in
  if n <=? h_cap s
  then pdo _ <- pwrite (h_arr s) (h_off s + h_len s) vs;
       PRet (Hdr (h_arr s) (h_off s) n (h_cap s))
  else pdo old <- pread_all s;
       let c := Nat.max n (grow (h_cap s) n) in
       pdo r <- pnew_array (old ++ vs ++ repeat None (c - n));
       PRet (Hdr (h_arr r) 0 n c).
Definition pappend_slice (s t : hdr) : prog hdr := pdo vs <- pread_all t; pappend s vs.

(** accumulator.go:186-222 handleSmallSet *)
Definition handleSmallSet_p (base N : Z) (s : hdr) : prog hdr :=
  match h_len s with
  | 4 =>
      pdo a0 <- pgetz s 0; pdo a1 <- pgetz s 1; let x0x1Prod := (a0 * a1)%Z in  (* 189 *)
      pdo a2 <- pgetz s 2; pdo a3 <- pgetz s 3; let x2x3Prod := (a2 * a3)%Z in  (* 190 *)
      pdo b1 <- pgetz s 1; let x0Prod := (x2x3Prod * b1)%Z in                   (* 191 *)
      pdo b0 <- pgetz s 0; let x1Prod := (x2x3Prod * b0)%Z in                   (* 192 *)
      pdo b3 <- pgetz s 3; let x2Prod := (x0x1Prod * b3)%Z in                   (* 193 *)
      pdo b2 <- pgetz s 2; let x3Prod := (x0x1Prod * b2)%Z in                   (* 194 *)
      pexps base N [x0Prod; x1Prod; x2Prod; x3Prod]                             (* 195-196 *)
  | 3 =>
      pdo a1 <- pgetz s 1; pdo a2 <- pgetz s 2; let x0Prod := (a1 * a2)%Z in    (* 200 *)
      pdo a0 <- pgetz s 0; pdo b2 <- pgetz s 2; let x1Prod := (a0 * b2)%Z in    (* 201 *)
      pdo b0 <- pgetz s 0; pdo b1 <- pgetz s 1; let x2Prod := (b0 * b1)%Z in    (* 202 *)
      pdo r <- pexps base N [x0Prod; x1Prod];                                   (* 203-204 *)
      pappend r [Some (AccumulateNew base x2Prod N)]                            (* 205-206 *)
  | 2 =>
      pdo a1 <- pgetz s 1; pdo a0 <- pgetz s 0; pexps base N [a1; a0]           (* 209-210 *)
  | 1 =>
      pdo r <- pmake 1 1; pdo _ <- pput r 0 (Some base); PRet r                 (* 213-216 *)
  | _ => PStop                                                                  (* 219-221 *)
  end.

(** accumulator.go:75-90, 106-119; concurrent.go:60-73, 114-127, 188-201, 245-258; [r] is the randomizer,
    1 where there is none *)
Definition four_bases_p (base r N : Z) (s : hdr) : prog hdr :=
  let n := h_len s in
  pdo sR <- pfrom s (n / 2);                  pdo leftProd0 <- SetProductRecursiveFast_p sR;
  pdo sL <- preslice s 0 (n / 2);             pdo rightProd0 <- SetProductRecursiveFast_p sL;
  let leftProd := (leftProd0 * r)%Z in
  let rightProd := (rightProd0 * r)%Z in
  pdo sLR <- preslice s (n / 4) (n / 2);      pdo leftleftProd <- SetProductRecursiveFast_p sLR;
  pdo sLL <- preslice s 0 (n / 4);            pdo leftrightProd <- SetProductRecursiveFast_p sLL;
  pdo sRR <- pfrom s (n * 3 / 4);             pdo rightleftProd <- SetProductRecursiveFast_p sRR;
  pdo sRL <- preslice s (n / 2) (n * 3 / 4);  pdo rightrightProd <- SetProductRecursiveFast_p sRL;
  pexps base N [leftProd * leftleftProd; leftProd * leftrightProd;
                rightProd * rightleftProd; rightProd * rightrightProd]%Z.

(** accumulator.go:92-96, 120-124: four calls and three appends *)
Definition four_calls_p (call : Z -> hdr -> prog hdr) (bases s : hdr) : prog hdr :=
  let n := h_len s in
  pdo b0 <- pgetz bases 0; pdo s0 <- preslice s 0 (n / 4);           pdo p0 <- call b0 s0;
  pdo b1 <- pgetz bases 1; pdo s1 <- preslice s (n / 4) (n / 2);     pdo q1 <- call b1 s1;
  pdo p1 <- pappend_slice p0 q1;
  pdo b2 <- pgetz bases 2; pdo s2 <- preslice s (n / 2) (n * 3 / 4); pdo q2 <- call b2 s2;
  pdo p2 <- pappend_slice p1 q2;
  pdo b3 <- pgetz bases 3; pdo s3 <- pfrom s (n * 3 / 4);            pdo q3 <- call b3 s3;
  pappend_slice p2 q3.

(** accumulator.go:100-125 ProveMembership; the fuel bounds the recursion depth *)
Fixpoint prove_membership_p (fuel : nat) (N : Z) (base : Z) (s : hdr) : prog hdr :=
  if h_len s <=? 4 then handleSmallSet_p base N s                               (* 102-104 *)
  else match fuel with
       | O => PStop
       | S f => pdo bases <- four_bases_p base 1 N s; four_calls_p (prove_membership_p f N) bases s
       end.
Definition ProveMembership_p (N base : Z) (s : hdr) : prog hdr := prove_membership_p (h_len s) N base s.

(** accumulator.go:73-97 ProveMembershipSingleThreadWithRandomizer *)
Definition SingleThreadWithRandomizer_p (N base randomizer : Z) (s : hdr) : prog hdr :=
  pdo bases <- four_bases_p base randomizer N s; four_calls_p (ProveMembership_p N) bases s.

(** concurrent.go:287-313 proveMembershipWithChan; the fuel bounds the recursion depth *)
Fixpoint with_chan_p (fuel : nat) (N : Z) (limit : Z) (base : Z) (s : hdr) : prog hdr :=
  if (limit <=? 0)%Z then ProveMembership_p N base s                            (* 288-292 *)
  else
    let limit := (limit - 1)%Z in                                               (* 293 *)
    if h_len s <=? 4 then handleSmallSet_p base N s                             (* 294-298 *)
    else match fuel with
         | O => PStop
         | S f =>
             let n := h_len s in
             pdo sR <- pfrom s (n / 2);       pdo leftProd <- SetProductRecursiveFast_p sR;
             pdo sL <- preslice s 0 (n / 2);  pdo rightProd <- SetProductRecursiveFast_p sL;
             pdo bases <- pexps base N [leftProd; rightProd];                   (* 303 *)
             pdo b0 <- pgetz bases 0; pdo s1 <- preslice s 0 (n / 2);           (* 306 *)
             pdo (proofs1, proofs2) <-
               ppar (with_chan_p f N limit b0 s1)
                    (pdo b1 <- pgetz bases 1; pdo s2 <- pfrom s (n / 2);        (* 307 *)
                     with_chan_p f N limit b1 s2);
             pappend_slice proofs1 proofs2                                      (* 308-311 *)
         end.
Definition WithChan_p (N limit base : Z) (s : hdr) : prog hdr := with_chan_p (h_len s) N limit base s.

(** the four go statements and receives of concurrent.go:80-97, 134-151, 208-225 and 265-282 *)
Definition four_goroutines_p (N limit : Z) (bases s : hdr) : prog hdr :=
  let n := h_len s in
  pdo b0 <- pgetz bases 0; pdo s0 <- preslice s 0 (n / 4);
  pdo (proofs1, (proofs2, (proofs3, proofs4))) <-
    ppar (WithChan_p N limit b0 s0)
      (pdo b1 <- pgetz bases 1; pdo s1 <- preslice s (n / 4) (n / 2);
       ppar (WithChan_p N limit b1 s1)
         (pdo b2 <- pgetz bases 2; pdo s2 <- preslice s (n / 2) (n * 3 / 4);
          ppar (WithChan_p N limit b2 s2)
            (pdo b3 <- pgetz bases 3; pdo s3 <- pfrom s (n * 3 / 4);
             WithChan_p N limit b3 s3)));
  pdo p1 <- pappend_slice proofs1 proofs2;
  pdo p2 <- pappend_slice p1 proofs3;
  pappend_slice p2 proofs4.

(** concurrent.go:48-98 ProveMembershipParallel and, with a table, 102-171 *)
Definition ProveMembershipParallel_p (N base : Z) (s : hdr) (limit : Z) : prog hdr :=
  if (limit <=? 0)%Z then ProveMembership_p N base s
  else if h_len s <=? 4 then handleSmallSet_p base N s
  else pdo bases <- four_bases_p base 1 N s; four_goroutines_p N (limit - 2) bases s.

(** concurrent.go:176-226 ProveMembershipParallelWithTableWithRandomizer and, sending the slice over a
    channel, 231-284 *)
Definition ParallelWithRandomizer_p (N base randomizer : Z) (s : hdr) (limit : Z) : prog hdr :=
  if (limit <=? 0)%Z then SingleThreadWithRandomizer_p N base randomizer s
  else pdo bases <- four_bases_p base 1 N s; four_goroutines_p N (limit - 2) bases s.
End Interleave.
