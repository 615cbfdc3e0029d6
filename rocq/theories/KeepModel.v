(** precompute/precompute.go:19-34 and comfromtable.go:34-132 with explicit memory, as in OwnModel: which cells a table
    keeps and which cells the computation from it reads and writes. *)
From Coq Require Import ZArith Bool List.
From Verif Require Import GoBig AccModel IterModel OwnModel TableModel.
Import ListNotations.
Open Scope Z_scope.

(** ** Table *)
(** precompute.go:11-16: the fields are pointers *)
Record Table_cells := { tc_g : addr; tc_n : addr; tc_chunk : nat; tc_table : list addr }.

(** precompute.go:30-32: t.table[i] = new(big.Int).Exp(t.table[i-1], opt, n) *)
Fixpoint table_rows_mem (k : nat) (m : mem) (prev opt n : addr) : outcome (mem * list addr) :=
  match k with
  | O => Ret (m, [])
  | S k =>
      do b <- load m prev; do e <- load m opt; do v <- load m n;
      let '(m, row) := alloc m 0 in
      do z <- load m row;
      do (m, rows) <- table_rows_mem k (store m row (exp_recv z b e v)) row opt n;
      Ret (m, row :: rows)
  end.
(** precompute.go:19-34; the fields g and n are the caller's pointers (20-24), table[0] is a copy (28) *)
Definition NewTable_mem (m : mem) (g n elementUpperBound : addr) (numElements byteChunkSize : nat) : outcome (mem * Table_cells) :=
  do bound <- load m elementUpperBound;
  let maxBitLen := bit_len bound * Z.of_nat numElements in
  if (byteChunkSize =? 0)%nat then Panic
  else
    let numByteChunks := Z.to_nat (maxBitLen / (Z.of_nat byteChunkSize * 8)) in
    match numByteChunks with
    | O => Panic
    | S k =>
        let '(m, first) := alloc m 0 in
        do x <- load m g;
        let m := store m first x in
        let '(m, opt) := alloc m (2 ^ (8 * Z.of_nat byteChunkSize)) in
        do (m, rows) <- table_rows_mem k m first opt n;
        Ret (m, {| tc_g := g; tc_n := n; tc_chunk := byteChunkSize; tc_table := first :: rows |})
    end.
(** the numbers a call of Compute (precompute.go:37-77) finds in the table: it reads them through the pointers *)
Definition table_at (m : mem) (t : Table_cells) : outcome Table :=
  do g <- load m (tc_g t); do n <- load m (tc_n t); do rows <- load_all m (tc_table t);
  Ret {| t_g := g; t_n := n; t_chunk := tc_chunk t; t_table := rows |}.

(** ** PreTable *)
(** comfromtable.go:20-23 *)
Record PreTable_cells := { pc_base : list addr; pc_n : list Z }.

(** comfromtable.go:50-54 *)
Fixpoint pre_rows_mem (k : nat) (m : mem) (prev : addr) (n stepSize : Z) (step N : addr) : outcome (mem * (list addr * list Z)) :=
  match k with
  | O => Ret (m, ([], []))
  | S k =>
      let n' := n + stepSize in
      do (m, row) <- AccumulateNew_mem m prev step N;
      do (m, rest) <- pre_rows_mem k m row n' stepSize step N;
      Ret (m, (row :: fst rest, n' :: snd rest))
  end.
(** comfromtable.go:34-57; base[0] is a copy (44-45) *)
Definition GenPreTable_mem (m : mem) (base N : addr) (bitLen tableSize : Z) : outcome (mem * PreTable_cells) :=
  if bitLen <=? tableSize then Panic
  else if tableSize <? 0 then Panic
  else if tableSize =? 0 then Panic
  else
    let stepSize := Z.quot bitLen tableSize in
    let '(m, first) := alloc m 0 in
    do x <- load m base;
    let m := store m first x in
    let '(m, step) := alloc m 0 in
    do z <- load m step;
    let m := store m step (exp_recv z 2 stepSize 0) in
    do (m, rest) <- pre_rows_mem (Z.to_nat tableSize - 1) m first 0 stepSize step N;
    Ret (m, {| pc_base := first :: fst rest; pc_n := 0 :: snd rest |}).
Definition pretable_at (m : mem) (t : PreTable_cells) : outcome PreTable :=
  do bs <- load_all m (pc_base t); Ret {| pt_base := bs; pt_n := pc_n t |}.

(** comfromtable.go:92-99: k iterations are left and i is the next row; xCopy is overwritten *)
Fixpoint split_mem (k i : nat) (ns : list Z) (m : mem) (xCopy : addr) (subX : list addr) : outcome mem :=
  match k with
  | O =>
      do s <- go_index subX (i - 1);                                   (* subX[iCounter].Set(&xCopy) *)
      do x <- load m xCopy;
      Ret (store m s x)
  | S k =>
      do ni <- go_index ns i;
      do np <- go_index ns (i - 1);
      let '(m, modulo) := alloc m (exp_recv 0 2 (ni - np) 0) in
      do s <- go_index subX (i - 1);
      do x <- load m xCopy; do d <- load m modulo;
      do sub <- go_mod x d;
      let m := store m s sub in
      do x <- load m xCopy;
      split_mem k (S i) ns (store m xCopy (rsh x (ni - np))) xCopy subX
  end.

(** comfromtable.go:121-130: the parts still to do; prod is overwritten *)
Fixpoint table_product_mem (i : nat) (bases : list addr) (subX : list addr) (m : mem) (N prod : addr) : outcome mem :=
  match subX with
  | [] => Ret m
  | e :: r =>
      do b <- go_index bases i;
      do (m, temp) <- AccumulateNew_mem m b e N;
      do p <- load m prod; do t <- load m temp;
      let m := store m prod (p * t) in
      if (i =? 0)%nat then table_product_mem (S i) bases r m N prod
      else
        do p <- load m prod; do n <- load m N;
        do q <- go_mod p n;
        table_product_mem (S i) bases r (store m prod q) N prod
  end.

(** comfromtable.go:60-132. subX is an array of numbers: iCounter+2 new cells, of which the last is never used *)
Definition ComputeFromTable_mem (m : mem) (t : PreTable_cells) (x N : addr) : outcome (mem * addr) :=
  if negb (length (pc_base t) =? length (pc_n t))%nat then Panic
  else if (length (pc_base t) <? 1)%nat then Panic
  else
    do v <- load m x;
    if v <? 1 then Panic
    else
      let '(m, xCopy) := alloc m 0 in
      do v' <- load m x;
      let m := store m xCopy v' in
      let iCounter := find_iCounter (pc_n t) (bit_len v) in
      let '(m, subX) := alloc_all m (repeat 0 (iCounter + 2)) in
      do m <- split_mem iCounter 1 (pc_n t) m xCopy subX;
      let '(m, prod) := alloc m 0 in
      let m := store m prod 1 in
      do m <- table_product_mem 0 (pc_base t) (firstn (iCounter + 1) subX) m N prod;
      Ret (m, prod).
