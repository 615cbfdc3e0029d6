(** Table.Compute (/repo/precompute/precompute.go:36-100) with its numbers in memory, one access at a time.

    TableModel.v lets a worker compute, and the collector multiply, in the step that receives. That is right only
    if nobody else touches the numbers they use. Here a *big.Int is the address of a cell and every read and write
    of a number is a step of its own. The rest of the program may run in between: it may make numbers and change
    the numbers it has made.

    As in TableModel.v the channels are queues with a capacity. Slices nobody writes while the goroutines run
    (xBytes, t.table) are lists; t.table is a list of addresses. The numbers res (48) and opt (87) exist from the
    start; in the program each goroutine makes its own in its first statement. *)
From Coq Require Import ZArith Ascii Bool String List.
From Verif Require Import GoBig ListUpd TableModel.
Import ListNotations.
Local Open Scope nat_scope.

Definition addr := nat.
Definition memory := list Z.
Definition get (h : memory) (a : addr) : Z := nth a h 0%Z.

(** a worker, routineCompute; the names are line numbers *)
Inductive wpc :=
| W89                                   (* select *)
| W93 (i : input)                       (* opt.SetBytes(...): writes opt *)
| W94 (i : input)                       (* new(big.Int) *)
| W94a (a : addr) (i : input)           (* Exp reads t.table[in.tableIdx] *)
| W94b (a : addr) (b : Z)               (* ... and opt *)
| W94c (a : addr) (b e : Z)             (* ... and n *)
| W94d (a : addr) (v : Z)               (* ... and writes the new number *)
| W95 (a : addr)                        (* resChan <- res *)
| W91.                                  (* returned *)
(** the collector, 47-62 *)
Inductive kpc :=
| K53 (counter : Z)                     (* range outputChan *)
| K54a (out : addr) (counter : Z)       (* Mul reads res *)
| K54b (out : addr) (r counter : Z)     (* ... and out *)
| K54c (v counter : Z)                  (* ... and writes res *)
| K55a (counter : Z)                    (* Mod reads res *)
| K55b (r counter : Z)                  (* ... and t.n *)
| K55c (v counter : Z)                  (* ... and writes res *)
| K58                                   (* resChan <- res *)
| K59.                                  (* returned *)
Inductive mpc := M63 (i : nat) | M76 (a : addr).      (* the loop; returned *)

(** a_other: the numbers the rest of the program has made meanwhile *)
Record astate := ASt {
  a_mem : memory; a_main : mpc; a_in : list input; a_workers : list wpc; a_out : list addr; a_coll : kpc;
  a_other : list addr }.

Section TabRace.
(** the fields of t; xBytes; the addresses of res and of each worker's opt *)
Variable rows : list addr.
Variable np : addr.
Variable chunk : nat.
Variable bytes : list ascii.
Variable R : nat.
Variable resp : addr.
Variable optp : nat -> addr.
(** numbers from before the call that the rest of the program goes on changing *)
Variable theirs : list addr.

Inductive achoice :=
| AFeed | ATake (w : nat) | AWork (w : nat) | AGive (w : nat) | ARecv | AColl | AResult
| ASpin (w : nat) | AExit (w : nat)
| AOther (v : Z) | AOtherSet (a : addr) (v : Z).      (* the rest of the program *)
(** steps that are not work of this call *)
Definition a_idle (c : achoice) : bool :=
  match c with ASpin _ | AOther _ | AOtherSet _ _ => true | _ => false end.

Definition set_w (s : astate) (h : memory) (w : nat) (pc : wpc) : astate :=
  ASt h (a_main s) (a_in s) (upd (a_workers s) w pc) (a_out s) (a_coll s) (a_other s).
Definition set_k (s : astate) (h : memory) (pc : kpc) : astate :=
  ASt h (a_main s) (a_in s) (a_workers s) (a_out s) pc (a_other s).

(** a worker between its receive and its send *)
Definition work_step (h : memory) (w : nat) (pc : wpc) : option (outcome (memory * wpc)) :=
  match pc with
  | W93 i => Some (do b <- go_slice bytes (in_left i) (in_right i);
                   Ret (upd h (optp w) (set_bytes (string_of_list_ascii b)), W94 i))
  | W94 i => Some (Ret (h ++ [0%Z], W94a (List.length h) i))
  | W94a a i => Some (do p <- go_index rows (in_idx i); Ret (h, W94b a (get h p)))
  | W94b a b => Some (Ret (h, W94c a b (get h (optp w))))
  | W94c a b e => Some (Ret (h, W94d a (exp_recv 0 b e (get h np))))
  | W94d a v => Some (Ret (upd h a v, W95 a))
  | _ => None
  end.
(** the collector between two receives *)
Definition coll_step (h : memory) (pc : kpc) : option (outcome (memory * kpc)) :=
  match pc with
  | K54a o c => Some (Ret (h, K54b o (get h resp) c))
  | K54b o r c => Some (Ret (h, K54c (r * get h o) c))
  | K54c v c => Some (Ret (upd h resp v, K55a c))
  | K55a c => Some (Ret (h, K55b (get h resp) c))
  | K55b r c => Some (do v <- go_mod r (get h np); Ret (h, K55c v c))
  | K55c v c => Some (Ret (upd h resp v, if (c - 1 =? 0)%Z then K58 else K53 (c - 1)))
  | _ => None
  end.

Definition a_step (s : astate) (c : achoice) : option (outcome astate) :=
  match c with
  | AFeed =>                                                  (* 63-75 *)
      match a_main s with
      | M63 (S i' as i) =>
          if List.length (a_in s) <? 4 * R then
            let inp := {| in_left := i - chunk; in_right := i; in_idx := (List.length bytes - i) / chunk |} in
            Some (Ret (ASt (a_mem s) (M63 (i - chunk)) (a_in s ++ [inp]) (a_workers s) (a_out s) (a_coll s) (a_other s)))
          else None
      | _ => None
      end
  | ATake w =>                                                (* 92 *)
      match nth_error (a_workers s) w, a_in s with
      | Some W89, i :: q =>
          Some (Ret (ASt (a_mem s) (a_main s) q (upd (a_workers s) w (W93 i)) (a_out s) (a_coll s) (a_other s)))
      | _, _ => None
      end
  | AWork w =>
      match nth_error (a_workers s) w with
      | Some pc =>
          match work_step (a_mem s) w pc with
          | Some o => Some (do (h, pc') <- o; Ret (set_w s h w pc'))
          | None => None
          end
      | None => None
      end
  | AGive w =>                                                (* 95 *)
      match nth_error (a_workers s) w with
      | Some (W95 a) =>
          if List.length (a_out s) <? R then
            Some (Ret (ASt (a_mem s) (a_main s) (a_in s) (upd (a_workers s) w W89) (a_out s ++ [a]) (a_coll s) (a_other s)))
          else None
      | _ => None
      end
  | ARecv =>                                                  (* 53 *)
      match a_coll s, a_out s with
      | K53 k, a :: q => Some (Ret (ASt (a_mem s) (a_main s) (a_in s) (a_workers s) q (K54a a k) (a_other s)))
      | _, _ => None
      end
  | AColl =>
      match coll_step (a_mem s) (a_coll s) with
      | Some o => Some (do (h, pc) <- o; Ret (set_k s h pc))
      | None => None
      end
  | AResult =>                                                (* 58-59, 76 *)
      match a_main s, a_coll s with
      | M63 O, K58 => Some (Ret (ASt (a_mem s) (M76 resp) (a_in s) (a_workers s) (a_out s) K59 (a_other s)))
      | _, _ => None
      end
  | ASpin w =>                                                (* 96-97 *)
      match nth_error (a_workers s) w, a_in s, a_main s with
      | Some W89, [], M63 _ => Some (Ret s)
      | _, _, _ => None
      end
  | AExit w =>                                                (* 90-91, after the deferred cancel of 42 *)
      match nth_error (a_workers s) w, a_main s with
      | Some W89, M76 _ => Some (Ret (set_w s (a_mem s) w W91))
      | _, _ => None
      end
  | AOther v =>
      Some (Ret (ASt (a_mem s ++ [v]) (a_main s) (a_in s) (a_workers s) (a_out s) (a_coll s)
                     (List.length (a_mem s) :: a_other s)))
  | AOtherSet a v =>
      if existsb (Nat.eqb a) (a_other s ++ theirs)
      then Some (Ret (ASt (upd (a_mem s) a v) (a_main s) (a_in s) (a_workers s) (a_out s) (a_coll s) (a_other s)))
      else None
  end.

(** the number returned: its address, and what it holds now *)
Definition a_ret (s : astate) : option (addr * Z) :=
  match a_main s with M76 a => Some (a, get (a_mem s) a) | _ => None end.

(** ** the next access of each goroutine *)
Inductive access := Rd (a : addr) | Wr (a : addr).
Definition w_next (w : nat) (pc : wpc) : option access :=
  match pc with
  | W93 _ => Some (Wr (optp w))
  | W94a _ i => match nth_error rows (in_idx i) with Some p => Some (Rd p) | None => None end
  | W94b _ _ => Some (Rd (optp w))
  | W94c _ _ _ => Some (Rd np)
  | W94d a _ => Some (Wr a)
  | _ => None
  end.
Definition k_next (pc : kpc) : option access :=
  match pc with
  | K54a _ _ | K55a _ => Some (Rd resp)
  | K54b o _ _ => Some (Rd o)
  | K54c _ _ | K55c _ _ => Some (Wr resp)
  | K55b _ _ => Some (Rd np)
  | _ => None
  end.
(** the goroutine g of this call: 0 is the collector, w + 1 is worker w *)
Definition next_of (s : astate) (g : nat) : option access :=
  match g with
  | O => k_next (a_coll s)
  | S w => match nth_error (a_workers s) w with Some pc => w_next w pc | None => None end
  end.
End TabRace.

(** 38-62: one cell for res and one for each opt behind what is there already *)
Definition res_at (h0 : memory) : addr := List.length h0.
Definition opt_at (h0 : memory) (w : nat) : addr := S (List.length h0 + w).
Definition a_start (h0 : memory) (chunk : nat) (bytes : list ascii) (R : nat) : astate :=
  let len := List.length bytes in
  ASt (h0 ++ 1%Z :: repeat 0%Z R) (M63 len) [] (repeat W89 R) []
      (K53 (Z.of_nat (len / chunk) + (if (len mod chunk =? 0)%nat then 0 else 1))%Z) [].
