(** ComputeFromTableParallel and getAccumulate (/repo/precompute/comfromtable.go:135-207) with their numbers in
    memory, one access at a time, as TabRaceModel.v does for Table.Compute.

    The caller's goroutine works alone up to line 173; [p_start] is the memory it leaves: the numbers of the
    slice subX (162-169, the last one is not used) and prod. xCopy and modulo are used by nobody later and left
    out. The goroutines all exist from the start. *)
From Coq Require Import ZArith Bool List.
From Verif Require Import GoBig ListUpd TableModel TabRaceModel.
Import ListNotations.
Local Open Scope nat_scope.

(** getAccumulate(base, exp, N, c) *)
Inductive gpc :=
| G204 (base exp : addr)                      (* var ret big.Int *)
| G205a (ret base exp : addr)                 (* Exp reads base *)
| G205b (ret : addr) (b : Z) (exp : addr)     (* ... and exp *)
| G205c (ret : addr) (b e : Z)                (* ... and N *)
| G205d (ret : addr) (v : Z)                  (* ... and writes ret *)
| G206 (ret : addr)                           (* c <- &ret *)
| G207.                                       (* returned *)
(** the caller's goroutine *)
Inductive ppc :=
| P188                                        (* range c *)
| P190a (v : addr)                            (* Mul reads prod *)
| P190b (v : addr) (p : Z)                    (* ... and v *)
| P190c (p : Z)                               (* ... and writes prod *)
| P191a                                       (* Mod reads prod *)
| P191b (p : Z)                               (* ... and N *)
| P191c (p : Z)                               (* ... and writes prod *)
| P192                                        (* i++, 194-196 *)
| P200.                                       (* returned *)

Record pstate := PSt {
  p_mem : memory; p_gor : list gpc; p_chan : list addr; p_closed : bool; p_pc : ppc; p_i : nat;
  p_other : list addr }.

Section PreRace.
Variable np : addr.       (* N *)
Variable prodp : addr.    (* prod *)
Variable cap : nat.       (* iCounter *)

Inductive pchoice :=
| PWork (k : nat)                             (* goroutine k, 204-205 *)
| PSend (k : nat)                             (* goroutine k, 206 *)
| PRecv | PMain                               (* 188; 190-196 *)
| POther (v : Z) | POtherSet (a : addr) (v : Z).      (* the rest of the program *)
Definition p_idle (c : pchoice) : bool := match c with POther _ | POtherSet _ _ => true | _ => false end.

Definition gor_step (h : memory) (pc : gpc) : option (memory * gpc) :=
  match pc with
  | G204 b e => Some (h ++ [0%Z], G205a (length h) b e)
  | G205a r b e => Some (h, G205b r (get h b) e)
  | G205b r b e => Some (h, G205c r b (get h e))
  | G205c r b e => Some (h, G205d r (exp_recv 0 b e (get h np)))
  | G205d r v => Some (upd h r v, G206 r)
  | _ => None
  end.
Definition set_main_p (s : pstate) (h : memory) (pc : ppc) : pstate :=
  PSt h (p_gor s) (p_chan s) (p_closed s) pc (p_i s) (p_other s).
Definition main_step (s : pstate) : option (outcome pstate) :=
  let h := p_mem s in
  match p_pc s with
  | P190a v => Some (Ret (set_main_p s h (P190b v (get h prodp))))
  | P190b v p => Some (Ret (set_main_p s h (P190c (p * get h v))))
  | P190c p => Some (Ret (set_main_p s (upd h prodp p) P191a))
  | P191a => Some (Ret (set_main_p s h (P191b (get h prodp))))
  | P191b p => Some (do r <- go_mod p (get h np); Ret (set_main_p s h (P191c r)))
  | P191c p => Some (Ret (set_main_p s (upd h prodp p) P192))
  | P192 =>
      Some (Ret (if S (p_i s) =? cap + 1
                 then PSt h (p_gor s) (p_chan s) true P200 (S (p_i s)) (p_other s)
                 else PSt h (p_gor s) (p_chan s) (p_closed s) P188 (S (p_i s)) (p_other s)))
  | _ => None
  end.

(** a send on a closed channel panics; with capacity 0 it needs the receiver at its receive *)
Definition p_step (s : pstate) (c : pchoice) : option (outcome pstate) :=
  match c with
  | PWork k =>
      match nth_error (p_gor s) k with
      | Some pc =>
          match gor_step (p_mem s) pc with
          | Some (h, pc') => Some (Ret (PSt h (upd (p_gor s) k pc') (p_chan s) (p_closed s) (p_pc s) (p_i s) (p_other s)))
          | None => None
          end
      | None => None
      end
  | PSend k =>
      match nth_error (p_gor s) k with
      | Some (G206 a) =>
          let gor := upd (p_gor s) k G207 in
          if p_closed s then Some Panic
          else if length (p_chan s) <? cap
          then Some (Ret (PSt (p_mem s) gor (p_chan s ++ [a]) (p_closed s) (p_pc s) (p_i s) (p_other s)))
          else if cap =? 0 then
            match p_pc s with
            | P188 => Some (Ret (PSt (p_mem s) gor [] (p_closed s) (P190a a) (p_i s) (p_other s)))
            | _ => None
            end
          else None
      | _ => None
      end
  | PRecv =>
      match p_pc s, p_chan s with
      | P188, a :: q => Some (Ret (PSt (p_mem s) (p_gor s) q (p_closed s) (P190a a) (p_i s) (p_other s)))
      | _, _ => None
      end
  | PMain => main_step s
  | POther v =>
      Some (Ret (PSt (p_mem s ++ [v]) (p_gor s) (p_chan s) (p_closed s) (p_pc s) (p_i s) (length (p_mem s) :: p_other s)))
  | POtherSet a v =>
      if existsb (Nat.eqb a) (p_other s)
      then Some (Ret (PSt (upd (p_mem s) a v) (p_gor s) (p_chan s) (p_closed s) (p_pc s) (p_i s) (p_other s)))
      else None
  end.
Definition p_ret (s : pstate) : option (addr * Z) :=
  match p_pc s with P200 => Some (prodp, get (p_mem s) prodp) | _ => None end.

(** the next access: 0 is the caller's goroutine, k + 1 is goroutine k *)
Definition g_next (pc : gpc) : option access :=
  match pc with
  | G205a _ b _ => Some (Rd b)
  | G205b _ _ e => Some (Rd e)
  | G205c _ _ _ => Some (Rd np)
  | G205d r _ => Some (Wr r)
  | _ => None
  end.
Definition p_next (pc : ppc) : option access :=
  match pc with
  | P190a _ | P191a => Some (Rd prodp)
  | P190b v _ => Some (Rd v)
  | P190c _ | P191c _ => Some (Wr prodp)
  | P191b _ => Some (Rd np)
  | _ => None
  end.
Definition p_next_of (s : pstate) (g : nat) : option access :=
  match g with
  | O => p_next (p_pc s)
  | S k => match nth_error (p_gor s) k with Some pc => g_next pc | None => None end
  end.
End PreRace.

(** 175-184: table.base[i] and &subX[i], from i on; [sub] is the address of subX[0] *)
Fixpoint start_gor (i k : nat) (rows : list addr) (sub : addr) : outcome (list gpc) :=
  match k with
  | O => Ret []
  | S k' => do b <- go_index rows i; do r <- start_gor (S i) k' rows sub; Ret (G204 b (sub + i) :: r)
  end.
(** 136-174: iCounter, the address of prod and the state; rows are the addresses in table.base, ns is table.n,
    and [theirs] the numbers the rest of the program goes on changing *)
Definition p_start (h0 : memory) (theirs : list addr) (rows : list addr) (ns : list Z) (x : Z) : outcome (nat * addr * pstate) :=
  if negb (length rows =? length ns) then Panic
  else if length rows <? 1 then Panic
  else if (x <? 1)%Z then Panic
  else
    let iCounter := find_iCounter ns (bit_len x) in
    do subX <- split_x iCounter 1 ns x;
    do gs <- start_gor 0 (iCounter + 1) rows (length h0);
    let h1 := h0 ++ subX ++ [0%Z] in
    Ret (iCounter, length h1, PSt (h1 ++ [1%Z]) gs [] false P188 0 theirs).
