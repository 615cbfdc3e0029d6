(** Model of the iterative witness functions at the level of the words of the numbers.

    A big.Int of math/big is a sign and a slice of 64-bit words. Copying the struct (as a parameter
    [base big.Int] or an assignment [ret.x = input.x] does) copies the slice header, not the words:
    original and copy then share one array of words. IterModel.v treats a number as one cell; here
    the arrays are explicit, so it can be said which arrays a call writes.

    The section on math/big follows Go 1.19 (int.go: Set, SetInt64, Exp; nat.go: make, set, setWord,
    expNN). Simplified: a [nat] always starts at the first word of its array; tests such as
    [len(y) == 0] are made on values, which is the same for numbers without leading zero words; Exp
    stores its final result once, where Go stores |x|^y mod m and, for x < 0, then m minus it. *)
From Coq Require Import ZArith Bool List.
From Verif Require Import GoBig AccModel IterModel.
Import ListNotations.
Open Scope Z_scope.

(** ** memory: arrays of words, and big.Int structs that refer to them *)
Record slice := Slice { arr : nat; len : nat }.
Record bint := BInt { neg : bool; abs : option slice }.   (* None: the nil slice *)
Record wmem := WMem { arrays : list (list Z); objs : list bint }.

Definition wbase : Z := 2 ^ 64.
Fixpoint digits (ws : list Z) : Z :=
  match ws with [] => 0 | w :: r => w + wbase * digits r end.
Fixpoint words_of (fuel : nat) (v : Z) : list Z :=
  match fuel with
  | O => []
  | S f => if v =? 0 then [] else v mod wbase :: words_of f (v / wbase)
  end.
(** the words of v >= 0, lowest first, no leading zero word *)
Definition words (v : Z) : list Z := words_of (Z.to_nat (bit_len v)) v.

Definition at_arr (A : list (list Z)) (a : nat) : list Z := nth a A [].
Definition cap (A : list (list Z)) (s : slice) : nat := length (at_arr A (arr s)).
Definition contents (A : list (list Z)) (z : option slice) : list Z :=
  match z with None => [] | Some s => firstn (len s) (at_arr A (arr s)) end.
(** the value of a number *)
Definition ival (A : list (list Z)) (o : bint) : Z :=
  let v := digits (contents A (abs o)) in if neg o then - v else v.
Definition value (wm : wmem) (p : nat) : option Z := option_map (ival (arrays wm)) (nth_error (objs wm) p).

(** ** math/big on arrays *)

(** copy [ws] into the first words of array [a] *)
Definition put (A : list (list Z)) (a : nat) (ws : list Z) : list (list Z) :=
  firstn a A ++ (ws ++ skipn (length ws) (at_arr A a)) :: skipn (S a) A.
(** nat.go make, the branch that allocates: one word, or n words and four to spare *)
Definition fresh (A : list (list Z)) (ws : list Z) : list (list Z) * option slice :=
  (A ++ [ws ++ repeat 0 (if (length ws =? 1)%nat then 0 else 4)], Some (Slice (length A) (length ws))).
(** nat.go: z = z.make(len(ws)), then the words are written; this is z.set and z.setWord *)
Definition fill (A : list (list Z)) (z : option slice) (ws : list Z) : list (list Z) * option slice :=
  match z with
  | Some s => if (length ws <=? cap A s)%nat then (put A (arr s) ws, Some (Slice (arr s) (length ws)))
              else fresh A ws
  | None => match ws with [] => (A, None) | _ => fresh A ws end
  end.
(** nat.go alias *)
Definition aliased (A : list (list Z)) (z x : option slice) : bool :=
  match z, x with
  | Some s, Some t => (0 <? cap A s)%nat && (arr s =? arr t)%nat
  | _, _ => false
  end.

Definition set_obj (wm : wmem) (p : nat) (A : list (list Z)) (o : bint) : wmem :=
  WMem A (firstn p (objs wm) ++ o :: skipn (S p) (objs wm)).

(** p.SetInt64(v), or any other statement that stores v in *p *)
Definition assign (wm : wmem) (p : nat) (v : Z) : outcome wmem :=
  do o <- deref (nth_error (objs wm) p);
  let '(A, s) := fill (arrays wm) (abs o) (words (Z.abs v)) in
  Ret (set_obj wm p A (BInt (v <? 0) s)).

(** new(big.Int).Set(g) *)
Definition NewSet (wm : wmem) (g : nat) : outcome (wmem * nat) :=
  do o <- deref (nth_error (objs wm) g);
  let '(A, s) := fill (arrays wm) None (contents (arrays wm) (abs o)) in
  Ret (WMem A (objs wm ++ [BInt (neg o) s]), length (objs wm)).

(** copying the struct: a parameter of type big.Int, or an assignment between two of them *)
Definition copy_struct (wm : wmem) (g : nat) : outcome (wmem * nat) :=
  do o <- deref (nth_error (objs wm) g);
  Ret (WMem (arrays wm) (objs wm ++ [o]), length (objs wm)).

(** what the exponentiation loop of expNN leaves in the array it was given to work with, and
    whether its result ends up there: both depend on the bits of the exponent *)
Record scratch := Scratch { reuse : bool; junk : list Z }.

Section Words.
Variable place : Z -> Z -> Z -> scratch.

(** nat.go expNN after its alias test: the early returns store directly, the loop scribbles *)
Definition expNN (A : list (list Z)) (z : option slice) (x y m v : Z) : list (list Z) * option slice :=
  if (m =? 1) || (y =? 0) || (x =? 0) || (x =? 1) || ((y =? 1) && ((m =? 0) || (x <? m)))
  then fill A z (words v)
  else match z with
       | None => fill A None (words v)
       | Some s =>
           let p := place x y m in
           let A1 := put A (arr s) (firstn (cap A s) (junk p)) in
           if reuse p then fill A1 z (words v) else fill A1 None (words v)
       end.

(** int.go Exp: z.Exp(x, y, n) as a statement *)
Definition Exp (wm : wmem) (z x y n : nat) : outcome wmem :=
  do oz <- deref (nth_error (objs wm) z);
  do ox <- deref (nth_error (objs wm) x);
  do oy <- deref (nth_error (objs wm) y);
  do on <- deref (nth_error (objs wm) n);
  let A := arrays wm in
  let xv := ival A ox in
  let yv := ival A oy in
  let nv := ival A on in
  match big_exp xv yv nv with
  | None => Ret wm                                                 (* nil: the receiver is left alone *)
  | Some v =>
      let '(A', s) :=
        if (yv <? 0) && (nv =? 0) then fill A (abs oz) (words 1)   (* z.SetInt64(1) *)
        else
          let base :=                                              (* xWords, and its array *)
            if yv <? 0 then match mod_inverse xv nv with Some i => (i, None) | None => (0, None) end
            else (Z.abs xv, abs ox) in
          let z' := if aliased A (abs oz) (snd base) || aliased A (abs oz) (abs oy)
                    then None else abs oz in
          expNN A z' (fst base) (Z.abs yv) (Z.abs nv) (Z.abs v) in
      Ret (set_obj wm z A' (BInt (v <? 0) s))
  end.

(** ** /repo/accumulator/accumulator.go *)

(** 225-229 AccumulateNew *)
Definition AccumulateNewW (wm : wmem) (g power N : nat) : outcome (wmem * nat) :=
  do (wm1, r) <- NewSet wm g;
  do wm2 <- Exp wm1 r g power N;
  Ret (wm2, r).

(** 231-236 accumulate *)
Fixpoint accumulateW (wm : wmem) (g N : nat) (set : list nat) : outcome wmem :=
  match set with
  | [] => Ret wm
  | a :: r => do wm1 <- Exp wm g g a N; accumulateW wm1 g N r
  end.

(** 252-255 accumulateNew *)
Definition accumulateNewW (wm : wmem) (g N : nat) (set : list nat) : outcome (wmem * nat) :=
  do (wm1, a) <- NewSet wm g;
  do wm2 <- accumulateW wm1 a N set;
  Ret (wm2, a).

Record wstate := WState { wm : wmem; wnodes : list pnode }.

(** 169-184 insertNewProofNode *)
Definition insertNewProofNodeW (st : wstate) (iter : nat) (N : nat) (set : list nat)
  : outcome (wstate * option nat) :=
  do it <- deref (nth_error (wnodes st) iter);
  let l := left it in
  let r := right it in
  let mid := (l + (r - l) / 2)%nat in
  do sl <- go_slice set l mid;
  do sr <- go_slice set mid r;
  do (m1, p1) <- accumulateNewW (wm st) (proof it) N sl;
  let newNode := PNode mid r p1 (next it) in
  do m2 <- accumulateW m1 (proof it) N sr;
  let newId := length (wnodes st) in
  let it' := PNode l mid (proof it) (Some newId) in
  Ret (WState m2 (set_node (wnodes st) iter it' ++ [newNode]), next newNode).

(** 152-159, one pass over the list *)
Fixpoint passW (fuel : nat) (st : wstate) (iter : option nat) (flag : bool) (N : nat) (set : list nat)
  : outcome (wstate * bool) :=
  match iter with
  | None => Ret (st, flag)
  | Some i =>
      match fuel with
      | O => OutOfFuel
      | S f =>
          do it <- deref (nth_error (wnodes st) i);
          if (right it - left it <=? 1)%nat then passW f st (next it) flag N set
          else do (st', i') <- insertNewProofNodeW st i N set; passW f st' i' true N set
      end
  end.

(** 149-160, passes until nothing is split *)
Fixpoint passesW (fuel : nat) (st : wstate) (header : nat) (N : nat) (set : list nat) : outcome wstate :=
  match fuel with
  | O => OutOfFuel
  | S f =>
      do (st', flag) <- passW (S (length set)) st (Some header) false N set;
      if flag then passesW f st' header N set else Ret st'
  end.

(** 136-167 ProveMembershipIter, called as ProveMembershipIter( *G, N, set): the parameter is a
    copy of the struct at G *)
Definition ProveMembershipIterW (wm0 : wmem) (G N : nat) (set : list nat) : outcome (wmem * list nat) :=
  do (wm1, b) <- copy_struct wm0 G;
  match set with
  | [] => Ret (wm1, [])
  | _ =>
      do st' <- passesW (S (length set)) (WState wm1 [PNode 0 (length set) b None]) 0 N set;
      do ps <- collect (S (length set)) (wnodes st') (Some 0%nat);
      Ret (wm st', ps)
  end.

(** 65-69, the body of AccAndProveIter after the representatives *)
Definition AccAndProveIterW (wm0 : wmem) (G N : nat) (rep : list nat) : outcome (wmem * (nat * list nat)) :=
  do (wm1, proofs) <- ProveMembershipIterW wm0 G N rep;
  do p0 <- go_index proofs 0;
  do r0 <- go_index rep 0;
  do (wm2, acc) <- AccumulateNewW wm1 p0 r0 N;
  Ret (wm2, (acc, proofs)).

(** /repo/accumulator/concurrent.go:323-327: ProveMembershipIterParallel on a set of at most twice
    as many elements as workers copies its copy once more *)
Definition ProveMembershipIterParallelSmallW (wm0 : wmem) (G N : nat) (set : list nat)
  : outcome (wmem * list nat) :=
  do (wm1, b) <- copy_struct wm0 G;
  ProveMembershipIterW wm1 b N set.
End Words.

(** ** /repo/zkmultiswap/common.go:187-197 PublicPart: the six numbers are copied as structs.
    [input] are the six fields of the UpdateSet32 in the order of the assignments; the epoch number
    is not a big.Int and is left out. *)
Fixpoint PublicPartW (wm : wmem) (input : list nat) : outcome (wmem * list nat) :=
  match input with
  | [] => Ret (wm, [])
  | f :: r => do (wm1, p) <- copy_struct wm f; do (wm2, ps) <- PublicPartW wm1 r; Ret (wm2, p :: ps)
  end.
