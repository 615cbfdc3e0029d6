(** precompute/comfromtable.go and precompute/precompute.go: exponentiation with precomputed powers. *)
From Coq Require Import ZArith Bool Lia String Ascii List.
From Verif Require Import GoBig AccModel ListUpd.
Import ListNotations.
Open Scope Z_scope.

(** * PreTable *)

(** comfromtable.go:20-23 *)
Record PreTable := { pt_base : list Z; pt_n : list Z }.

(** comfromtable.go:50-54: rows i = 1 .. tableSize-1, from the previous row *)
Fixpoint pre_rows (k : nat) (base : Z) (n : Z) (stepSize step N : Z) : list Z * list Z :=
  match k with
  | O => ([], [])
  | S k =>
      let n' := n + stepSize in
      let base' := AccumulateNew base step N in
      let '(bs, ns) := pre_rows k base' n' stepSize step N in
      (base' :: bs, n' :: ns)
  end.

(** comfromtable.go:34-57. A negative tableSize panics in make (line 39), zero in the division at
    line 42. bitLen and tableSize are Go ints; overflow is not modelled. *)
Definition GenPreTable (base N bitLen tableSize : Z) : outcome PreTable :=
  if bitLen <=? tableSize then Panic
  else if tableSize <? 0 then Panic
  else if tableSize =? 0 then Panic
  else
    let stepSize := Z.quot bitLen tableSize in
    let step := exp_recv 0 2 stepSize 0 in
    let '(bs, ns) := pre_rows (Z.to_nat tableSize - 1) base 0 stepSize step N in
    Ret {| pt_base := base :: bs; pt_n := 0 :: ns |}.

(** comfromtable.go:80-84 / 153-157: first index whose marker reaches length *)
Fixpoint first_reaching (ns : list Z) (len : Z) : nat :=
  match ns with
  | [] => O
  | n :: r => if n >=? len then O else S (first_reaching r len)
  end.
(** comfromtable.go:80-87 *)
Definition find_iCounter (ns : list Z) (len : Z) : nat :=
  let i := first_reaching ns len in
  if (i =? length ns)%nat then (i - 1)%nat else i.

(** Int.Rsh(x, uint(d)) for x >= 0: a negative d becomes a huge uint, which shifts everything out *)
Definition rsh (x d : Z) : Z := if d <? 0 then 0 else x / 2 ^ d.

(** comfromtable.go:92-99 / 163-169: the parts subX[0..iCounter]; k iterations are left and i is the
    next row. The unused extra slot iCounter+1 is left out. *)
Fixpoint split_x (k i : nat) (ns : list Z) (xCopy : Z) : outcome (list Z) :=
  match k with
  | O => Ret [xCopy]
  | S k =>
      do ni <- go_index ns i;
      do np <- go_index ns (i - 1);
      let modulo := exp_recv 0 2 (ni - np) 0 in
      do sub <- go_mod xCopy modulo;
      do rest <- split_x k (S i) ns (rsh xCopy (ni - np));
      Ret (sub :: rest)
  end.

(** comfromtable.go:121-130: i = 0 is multiplied without reduction *)
Fixpoint table_product (i : nat) (bases subX : list Z) (N prod : Z) : outcome Z :=
  match subX with
  | [] => Ret prod
  | e :: r =>
      do b <- go_index bases i;
      let temp := AccumulateNew b e N in
      if (i =? 0)%nat then table_product (S i) bases r N (prod * temp)
      else do p <- go_mod (prod * temp) N; table_product (S i) bases r N p
  end.

(** comfromtable.go:60-132 *)
Definition ComputeFromTable (t : PreTable) (x N : Z) : outcome Z :=
  if negb (length (pt_base t) =? length (pt_n t))%nat then Panic
  else if (length (pt_base t) <? 1)%nat then Panic
  else if x <? 1 then Panic
  else
    let iCounter := find_iCounter (pt_n t) (bit_len x) in
    do subX <- split_x iCounter 1 (pt_n t) x;
    table_product 0 (pt_base t) subX N 1.

(** ** ComputeFromTableParallel, comfromtable.go:135-201, and getAccumulate, 203-207 *)

(** 175-184: the goroutines started; goroutine i computes base[i]^subX[i] *)
Fixpoint start_all (i : nat) (bases subX : list Z) : outcome (list (Z * Z)) :=
  match subX with
  | [] => Ret []
  | e :: r => do b <- go_index bases i; do rest <- start_all (S i) bases r; Ret ((b, e) :: rest)
  end.

(** the state: goroutines not yet past their send (None: finished), the channel c with its capacity,
    the loop variables of the main goroutine, and its result once it has returned *)
Record cpstate := {
  cp_N : Z; cp_cap : nat; cp_total : nat;
  cp_gor : list (option (Z * Z));
  cp_chan : list Z; cp_closed : bool;
  cp_prod : Z; cp_i : nat;
  cp_ret : option Z }.

Definition cp_init (t : PreTable) (x N : Z) : outcome cpstate :=
  if negb (length (pt_base t) =? length (pt_n t))%nat then Panic
  else if (length (pt_base t) <? 1)%nat then Panic
  else if x <? 1 then Panic
  else
    let iCounter := find_iCounter (pt_n t) (bit_len x) in
    do subX <- split_x iCounter 1 (pt_n t) x;
    do gs <- start_all 0 (pt_base t) subX;
    Ret {| cp_N := N; cp_cap := iCounter; cp_total := (iCounter + 1)%nat;
           cp_gor := map Some gs; cp_chan := []; cp_closed := false;
           cp_prod := 1; cp_i := 0; cp_ret := None |}.

(** 189-197: what the main goroutine does with a received value *)
Definition cp_receive (s : cpstate) (gor : list (option (Z * Z))) (chan : list Z) (v : Z) : outcome cpstate :=
  do p <- go_mod (cp_prod s * v) (cp_N s);
  let i := S (cp_i s) in
  let fin := (i =? cp_total s)%nat in
  Ret {| cp_N := cp_N s; cp_cap := cp_cap s; cp_total := cp_total s;
         cp_gor := gor; cp_chan := chan; cp_closed := fin || cp_closed s;
         cp_prod := p; cp_i := i; cp_ret := if fin then Some p else None |}.

Inductive cpchoice := CPSend (k : nat) | CPRecv.

(** A send on a closed channel panics. A send proceeds when the buffer has room; with capacity 0 it
    needs the receiver, which is waiting as long as it has not returned. *)
Definition cp_step (s : cpstate) (c : cpchoice) : option (outcome cpstate) :=
  match c with
  | CPSend k =>
      match nth_error (cp_gor s) k with
      | Some (Some (b, e)) =>
          let v := exp_recv 0 b e (cp_N s) in          (* 204-205: a fresh big.Int *)
          let gor := upd (cp_gor s) k None in
          if cp_closed s then Some Panic
          else if (length (cp_chan s) <? cp_cap s)%nat then
            Some (Ret {| cp_N := cp_N s; cp_cap := cp_cap s; cp_total := cp_total s;
                         cp_gor := gor; cp_chan := cp_chan s ++ [v]; cp_closed := cp_closed s;
                         cp_prod := cp_prod s; cp_i := cp_i s; cp_ret := cp_ret s |})
          else if (cp_cap s =? 0)%nat then
            match cp_ret s with
            | None => Some (cp_receive s gor [] v)
            | Some _ => None
            end
          else None
      | _ => None
      end
  | CPRecv =>
      match cp_ret s, cp_chan s with
      | None, v :: r => Some (cp_receive s (cp_gor s) r v)
      | _, _ => None
      end
  end.

(** * Table *)

(** precompute.go:11-16 *)
Record Table := { t_g : Z; t_n : Z; t_chunk : nat; t_table : list Z }.

(** precompute.go:30-32 *)
Fixpoint table_rows (k : nat) (prev opt n : Z) : list Z :=
  match k with
  | O => []
  | S k => let v := exp_recv 0 prev opt n in v :: table_rows k v opt n
  end.

(** precompute.go:19-34. byteChunkSize = 0 panics in the division, no chunk at all panics at
    table[0] (line 28); a negative byteChunkSize panics as well and is not modelled. int overflow is
    not modelled. *)
Definition NewTable (g n elementUpperBound : Z) (numElements byteChunkSize : nat) : outcome Table :=
  let maxBitLen := bit_len elementUpperBound * Z.of_nat numElements in
  if (byteChunkSize =? 0)%nat then Panic
  else
    let numByteChunks := Z.to_nat (maxBitLen / (Z.of_nat byteChunkSize * 8)) in
    match numByteChunks with
    | O => Panic
    | S k => Ret {| t_g := g; t_n := n; t_chunk := byteChunkSize;
                    t_table := g :: table_rows k g (2 ^ (8 * Z.of_nat byteChunkSize)) n |}
    end.

(** precompute.go:79-83 *)
Record input := { in_left : nat; in_right : nat; in_idx : nat }.

(** precompute.go:93-94: a worker's computation on one input *)
Definition work_value (t : Table) (xBytes : list ascii) (i : input) : outcome Z :=
  do b <- go_slice xBytes (in_left i) (in_right i);
  do base <- go_index (t_table t) (in_idx i);
  Ret (exp_recv 0 base (set_bytes (string_of_list_ascii b)) (t_n t)).

Inductive worker := WLoop | WSend (v : Z) | WExited.
Inductive collector := CLoop (res : Z) (counter : Z) | CSend (res : Z) | CExited.
Inductive mainst := MFeed (i : nat) | MReturned (v : Z).

(** the goroutines of one Compute call and the channels inputChan (capacity 4R) and outputChan
    (capacity R); resChan is unbuffered *)
Record tstate := {
  ts_table : Table; ts_bytes : list ascii; ts_R : nat;
  ts_main : mainst; ts_in : list input; ts_workers : list worker;
  ts_out : list Z; ts_coll : collector }.

(** precompute.go:38-53: the state once the goroutines are started. counter is len/chunk rounded up. *)
Definition t_init (t : Table) (x : Z) (numRoutine : nat) : tstate :=
  let xBytes := list_ascii_of_string (big_bytes x) in
  let len := length xBytes in
  {| ts_table := t; ts_bytes := xBytes; ts_R := numRoutine;
     ts_main := MFeed len; ts_in := []; ts_workers := repeat WLoop numRoutine; ts_out := [];
     ts_coll := CLoop 1 (Z.of_nat (len / t_chunk t) + (if (len mod t_chunk t =? 0)%nat then 0 else 1)) |}.

Definition t_ret (s : tstate) : option Z := match ts_main s with MReturned v => Some v | _ => None end.

Inductive tchoice :=
| TFeed            (* main sends the next input, 63-75 *)
| TTake (w : nat)  (* worker w receives an input and computes, 92-94 *)
| TGive (w : nat)  (* worker w sends its result, 95 *)
| TColl            (* the collector receives a result, 54-57 *)
| TResult          (* the collector hands the result to main, 58-59 and 76 *)
| TSpin (w : nat)  (* worker w takes the default branch, 96-97 *)
| TExit (w : nat). (* worker w sees ctx.Done, 90-91, after main has returned (defer cancel, line 42) *)
Definition t_idle (c : tchoice) : bool := match c with TSpin _ => true | _ => false end.

Definition set_main (s : tstate) m :=
  {| ts_table := ts_table s; ts_bytes := ts_bytes s; ts_R := ts_R s; ts_main := m; ts_in := ts_in s;
     ts_workers := ts_workers s; ts_out := ts_out s; ts_coll := ts_coll s |}.
Definition set_in (s : tstate) q :=
  {| ts_table := ts_table s; ts_bytes := ts_bytes s; ts_R := ts_R s; ts_main := ts_main s; ts_in := q;
     ts_workers := ts_workers s; ts_out := ts_out s; ts_coll := ts_coll s |}.
Definition set_worker (s : tstate) w v :=
  {| ts_table := ts_table s; ts_bytes := ts_bytes s; ts_R := ts_R s; ts_main := ts_main s; ts_in := ts_in s;
     ts_workers := upd (ts_workers s) w v; ts_out := ts_out s; ts_coll := ts_coll s |}.
Definition set_out (s : tstate) q :=
  {| ts_table := ts_table s; ts_bytes := ts_bytes s; ts_R := ts_R s; ts_main := ts_main s; ts_in := ts_in s;
     ts_workers := ts_workers s; ts_out := q; ts_coll := ts_coll s |}.
Definition set_coll (s : tstate) c :=
  {| ts_table := ts_table s; ts_bytes := ts_bytes s; ts_R := ts_R s; ts_main := ts_main s; ts_in := ts_in s;
     ts_workers := ts_workers s; ts_out := ts_out s; ts_coll := c |}.

Definition t_step (s : tstate) (c : tchoice) : option (outcome tstate) :=
  let t := ts_table s in
  match c with
  | TFeed =>
      match ts_main s with
      | MFeed (S i' as i) =>                             (* 63: i > 0 *)
          if (length (ts_in s) <? 4 * ts_R s)%nat then
            let inp := {| in_left := i - t_chunk t; in_right := i;
                          in_idx := (length (ts_bytes s) - i) / t_chunk t |} in
            Some (Ret (set_main (set_in s (ts_in s ++ [inp])) (MFeed (i - t_chunk t))))
          else None
      | _ => None
      end
  | TTake w =>
      match nth_error (ts_workers s) w, ts_in s with
      | Some WLoop, inp :: q =>
          Some (do v <- work_value t (ts_bytes s) inp; Ret (set_worker (set_in s q) w (WSend v)))
      | _, _ => None
      end
  | TGive w =>
      match nth_error (ts_workers s) w with
      | Some (WSend v) =>
          if (length (ts_out s) <? ts_R s)%nat then
            Some (Ret (set_worker (set_out s (ts_out s ++ [v])) w WLoop))
          else None
      | _ => None
      end
  | TColl =>
      match ts_coll s, ts_out s with
      | CLoop res counter, v :: q =>
          Some (do r <- go_mod (res * v) (t_n t);
                Ret (set_coll (set_out s q) (if counter - 1 =? 0 then CSend r else CLoop r (counter - 1))))
      | _, _ => None
      end
  | TResult =>
      match ts_main s, ts_coll s with
      | MFeed O, CSend r => Some (Ret (set_coll (set_main s (MReturned r)) CExited))
      | _, _ => None
      end
  | TSpin w =>
      match nth_error (ts_workers s) w, ts_in s, ts_main s with
      | Some WLoop, [], MFeed _ => Some (Ret s)
      | _, _, _ => None
      end
  | TExit w =>
      match nth_error (ts_workers s) w, ts_main s with
      | Some WLoop, MReturned _ => Some (Ret (set_worker s w WExited))
      | _, _ => None
      end
  end.
