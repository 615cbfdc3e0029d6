(** proveMembershipIter (/repo/accumulator/concurrent.go:385-431, 459-476) one memory access at a time.

    ParIterModel.v lets a goroutine run from one communication to the next in one step. That is right only if what
    the two goroutines of proveMembershipIter do in between does not interfere. Here every read and write of the
    variables they share is a step of its own: iter, finishFlag, the fields of the list nodes, the numbers, and the
    elements of the slice. A call of math/big (Set, Exp) and the initialisation of a new node are one step that lists
    all its accesses. Other goroutines of the program may run in between; they are an environment that may make
    numbers of its own and change them.

    Not in the model: parameters and variables used by one goroutine only (left, right, mid, proofs, N, set), and the
    channels and the context, which are synchronised by the runtime. *)
From Coq Require Import ZArith Bool List.
From Verif Require Import GoBig AccModel IterModel ListUpd ParIterModel.
Import ListNotations.
Local Open Scope nat_scope.

Inductive field := FLeft | FRight | FProof | FNext.
Inductive loc :=
| LIter | LFlag                    (* 395-396 *)
| LNode (n : nat) (f : field)
| LBig (a : addr)                  (* a number *)
| LSlot (k : nat).                 (* set[k], the pointer *)
Inductive kind := Rd | Wr.
Definition access := (loc * kind)%type.

Record rnode := RNode { n_left : nat; n_right : nat; n_proof : addr; n_next : option nat }.
Definition set_left (nd : rnode) (x : nat) := RNode x (n_right nd) (n_proof nd) (n_next nd).
Definition set_right (nd : rnode) (x : nat) := RNode (n_left nd) x (n_proof nd) (n_next nd).
Definition set_proof (nd : rnode) (x : addr) := RNode (n_left nd) (n_right nd) x (n_next nd).
Definition set_next (nd : rnode) (x : option nat) := RNode (n_left nd) (n_right nd) (n_proof nd) x.

(** accumulateNew(g, N, part) (accumulator.go:231-236, 252-255); part are positions in the slice *)
Inductive apc :=
| ANew (g : addr) (part : list nat)            (* 253: new(big.Int) *)
| ASet (c g : addr) (part : list nat)          (* 253: .Set(g) *)
| ASlot (c : addr) (part : list nat)           (* 232: range set; with [] the call returns c *)
| AExp (c e : addr) (part : list nat).         (* 233: g.Exp(g, v, N) *)

(** the caller's goroutine; the names are line numbers *)
Inductive mpc :=
| M413 | M414 | M415 | M416
| M417a | M417b (i : nat) | M417c (r : nat) | M417d (r i : nat)       (* iter, .right, iter, .left *)
| M418a | M418b (i : nat) | M418c (nx : option nat)                   (* iter, .next, iter = *)
| M421 | M461 (i : nat) | M462 (i l : nat)                            (* iter; insertNewProofNodeWithChan: .left, .right *)
| M464 (i l r : nat)                                                  (* sendChan <- *)
| M468 (i l r : nat) | M468acc (i l r : nat) (a : apc)                (* iter.proof; accumulateNew *)
| M469 (i l r : nat) (c : addr)                                       (* iter.next *)
| M465 (i l r : nat) (c : addr) (nx : option nat)                     (* &proofNode{...} *)
| M471 (i l r n : nat) | M472 (i l r n : nat)                         (* iter.left =, iter.right = *)
| M473 (i l r n : nat)                                                (* <-iterChan *)
| M473w (i l r n : nat) (v : addr)                                    (* iter.proof = *)
| M474 (i l r n : nat)                                                (* iter.next = *)
| M475 (n : nat)                                                      (* newProofNode.next *)
| M421w (nx : option nat)                                             (* iter = *)
| M422                                                                (* finishFlag = true *)
| M427 | M427t (ps : list addr)                                       (* iter = header; iter != nil *)
| M428a (ps : list addr) | M428b (ps : list addr) (i : nat)           (* iter, .proof *)
| M427a (ps : list addr) | M427b (ps : list addr) (i : nat) | M427c (ps : list addr) (nx : option nat)  (* iter, .next, iter = *)
| M430 (ps : list addr) | MEnd (ps : list addr).                      (* cancel(); returned *)
(** its helper *)
Inductive hpc' :=
| H405                                        (* select *)
| H407a (l r : nat) | H407b (l r i : nat)     (* iter, .proof *)
| H407acc (l r : nat) (a : apc)               (* accumulateNew *)
| H407s (c : addr)                            (* iterChan <- *)
| H409.

Record R := MkR { r_mem : mem; r_own : list addr; r_nodes : list rnode; r_iter : option nat; r_flag : bool;
                  r_pc : mpc; r_hp : hpc'; r_cancelled : bool }.

Section Race.
Variable set : list addr.
Variable Np base : addr.
Variable left right : nat.

(** 389-412; r_own are the numbers made by the two goroutines since *)
Definition rstart (m : mem) : R := MkR m [] [RNode left right base None] (Some 0) true M413 H405 false.

Definition goto (s : R) (pc : mpc) : R := MkR (r_mem s) (r_own s) (r_nodes s) (r_iter s) (r_flag s) pc (r_hp s) (r_cancelled s).
Definition put_iter (s : R) (i : option nat) (pc : mpc) : R := MkR (r_mem s) (r_own s) (r_nodes s) i (r_flag s) pc (r_hp s) (r_cancelled s).
Definition put_flag (s : R) (b : bool) (pc : mpc) : R := MkR (r_mem s) (r_own s) (r_nodes s) (r_iter s) b pc (r_hp s) (r_cancelled s).
Definition put_nodes (s : R) (ns : list rnode) (pc : mpc) : R := MkR (r_mem s) (r_own s) ns (r_iter s) (r_flag s) pc (r_hp s) (r_cancelled s).
Definition put_mem (s : R) (m : mem) (own : list addr) (pc : mpc) : R := MkR m own (r_nodes s) (r_iter s) (r_flag s) pc (r_hp s) (r_cancelled s).
Definition hgoto (s : R) (h : hpc') : R := MkR (r_mem s) (r_own s) (r_nodes s) (r_iter s) (r_flag s) (r_pc s) h (r_cancelled s).
Definition hput_mem (s : R) (m : mem) (own : list addr) (h : hpc') : R := MkR m own (r_nodes s) (r_iter s) (r_flag s) (r_pc s) h (r_cancelled s).

(** inside accumulateNew: the accesses of the next step, and the step; None: the call has returned *)
Definition aaccess (a : apc) : list access :=
  match a with
  | ANew _ _ => []
  | ASet c g _ => [(LBig g, Rd); (LBig c, Wr)]
  | ASlot _ (k :: _) => [(LSlot k, Rd)]
  | ASlot _ [] => []
  | AExp c e _ => [(LBig c, Rd); (LBig e, Rd); (LBig Np, Rd); (LBig c, Wr)]
  end.
Definition astep (m : mem) (own : list addr) (a : apc) : option (outcome (mem * list addr * apc)) :=
  match a with
  | ANew g part => let '(m', c) := alloc m 0%Z in Some (Ret (m', c :: own, ASet c g part))
  | ASet c g part => Some (do v <- load m g; Ret (store m c v, own, ASlot c part))
  | ASlot c (k :: part) => Some (do e <- go_index set k; Ret (m, own, AExp c e part))
  | ASlot c [] => None
  | AExp c e part => Some (do x <- load m c; do y <- load m e; do n <- load m Np; Ret (store m c (exp_recv x x y n), own, ASlot c part))
  end.
Definition result_of (a : apc) : option addr := match a with ASlot c [] => Some c | _ => None end.
(** the positions of the slice expression set[l:r] *)
Definition positions (l r : nat) : outcome (list nat) := go_slice (seq 0 (length set)) l r.

Definition maccess (s : R) : list access :=
  match r_pc s with
  | M413 => [(LFlag, Rd)] | M414 => [(LFlag, Wr)] | M415 => [(LIter, Wr)] | M416 => [(LIter, Rd)]
  | M417a => [(LIter, Rd)] | M417b i => [(LNode i FRight, Rd)] | M417c _ => [(LIter, Rd)] | M417d _ i => [(LNode i FLeft, Rd)]
  | M418a => [(LIter, Rd)] | M418b i => [(LNode i FNext, Rd)] | M418c _ => [(LIter, Wr)]
  | M421 => [(LIter, Rd)] | M461 i => [(LNode i FLeft, Rd)] | M462 i _ => [(LNode i FRight, Rd)]
  | M464 _ _ _ => []
  | M468 i _ _ => [(LNode i FProof, Rd)] | M468acc _ _ _ a => aaccess a
  | M469 i _ _ _ => [(LNode i FNext, Rd)]
  | M465 _ _ _ _ _ => let n := length (r_nodes s) in [(LNode n FLeft, Wr); (LNode n FRight, Wr); (LNode n FProof, Wr); (LNode n FNext, Wr)]
  | M471 i _ _ _ => [(LNode i FLeft, Wr)] | M472 i _ _ _ => [(LNode i FRight, Wr)]
  | M473 _ _ _ _ => []
  | M473w i _ _ _ _ => [(LNode i FProof, Wr)]
  | M474 i _ _ _ => [(LNode i FNext, Wr)]
  | M475 n => [(LNode n FNext, Rd)]
  | M421w _ => [(LIter, Wr)] | M422 => [(LFlag, Wr)]
  | M427 => [(LIter, Wr)] | M427t _ => [(LIter, Rd)]
  | M428a _ => [(LIter, Rd)] | M428b _ i => [(LNode i FProof, Rd)]
  | M427a _ => [(LIter, Rd)] | M427b _ i => [(LNode i FNext, Rd)] | M427c _ _ => [(LIter, Wr)]
  | M430 _ => [] | MEnd _ => []
  end.
Definition haccess (s : R) : list access :=
  match r_hp s with
  | H405 => []
  | H407a _ _ => [(LIter, Rd)] | H407b _ _ i => [(LNode i FProof, Rd)]
  | H407acc _ _ a => aaccess a
  | H407s _ => [] | H409 => []
  end.

Definition node (s : R) (i : nat) : outcome rnode := deref (nth_error (r_nodes s) i).

(** a step of the caller's goroutine that is not a communication *)
Definition mstep (s : R) : option (outcome R) :=
  match r_pc s with
  | M413 => Some (Ret (goto s (if r_flag s then M414 else M427)))
  | M414 => Some (Ret (put_flag s false M415))
  | M415 => Some (Ret (put_iter s (Some 0) M416))
  | M416 => Some (Ret (goto s (match r_iter s with None => M413 | Some _ => M417a end)))
  | M417a => Some (do i <- deref (r_iter s); Ret (goto s (M417b i)))
  | M417b i => Some (do nd <- node s i; Ret (goto s (M417c (n_right nd))))
  | M417c r => Some (do i <- deref (r_iter s); Ret (goto s (M417d r i)))
  | M417d r i => Some (do nd <- node s i; Ret (goto s (if r - n_left nd <=? 1 then M418a else M421)))
  | M418a => Some (do i <- deref (r_iter s); Ret (goto s (M418b i)))
  | M418b i => Some (do nd <- node s i; Ret (goto s (M418c (n_next nd))))
  | M418c nx => Some (Ret (put_iter s nx M416))
  | M421 => Some (do i <- deref (r_iter s); Ret (goto s (M461 i)))
  | M461 i => Some (do nd <- node s i; Ret (goto s (M462 i (n_left nd))))
  | M462 i l => Some (do nd <- node s i; Ret (goto s (M464 i l (n_right nd))))
  | M464 _ _ _ => None
  | M468 i l r => Some (do nd <- node s i; do part <- positions l (middle l r); Ret (goto s (M468acc i l r (ANew (n_proof nd) part))))
  | M468acc i l r a =>
      match result_of a with
      | Some c => Some (Ret (goto s (M469 i l r c)))
      | None => match astep (r_mem s) (r_own s) a with
                | Some o => Some (do (m, own, a') <- o; Ret (put_mem s m own (M468acc i l r a')))
                | None => None
                end
      end
  | M469 i l r c => Some (do nd <- node s i; Ret (goto s (M465 i l r c (n_next nd))))
  | M465 i l r c nx => Some (Ret (put_nodes s (r_nodes s ++ [RNode (middle l r) r c nx]) (M471 i l r (length (r_nodes s)))))
  | M471 i l r n => Some (do nd <- node s i; Ret (put_nodes s (upd (r_nodes s) i (set_left nd l)) (M472 i l r n)))
  | M472 i l r n => Some (do nd <- node s i; Ret (put_nodes s (upd (r_nodes s) i (set_right nd (middle l r))) (M473 i l r n)))
  | M473 _ _ _ _ => None
  | M473w i l r n v => Some (do nd <- node s i; Ret (put_nodes s (upd (r_nodes s) i (set_proof nd v)) (M474 i l r n)))
  | M474 i l r n => Some (do nd <- node s i; Ret (put_nodes s (upd (r_nodes s) i (set_next nd (Some n))) (M475 n)))
  | M475 n => Some (do nd <- node s n; Ret (goto s (M421w (n_next nd))))
  | M421w nx => Some (Ret (put_iter s nx M422))
  | M422 => Some (Ret (put_flag s true M416))
  | M427 => Some (Ret (put_iter s (Some 0) (M427t [])))
  | M427t ps => Some (Ret (goto s (match r_iter s with None => M430 ps | Some _ => M428a ps end)))
  | M428a ps => Some (do i <- deref (r_iter s); Ret (goto s (M428b ps i)))
  | M428b ps i => Some (do nd <- node s i; Ret (goto s (M427a (ps ++ [n_proof nd]))))
  | M427a ps => Some (do i <- deref (r_iter s); Ret (goto s (M427b ps i)))
  | M427b ps i => Some (do nd <- node s i; Ret (goto s (M427c ps (n_next nd))))
  | M427c ps nx => Some (Ret (put_iter s nx (M427t ps)))
  | M430 ps => Some (Ret (MkR (r_mem s) (r_own s) (r_nodes s) (r_iter s) (r_flag s) (MEnd ps) (r_hp s) true))
  | MEnd _ => None
  end.
Definition hstep (s : R) : option (outcome R) :=
  match r_hp s with
  | H407a l r => Some (do i <- deref (r_iter s); Ret (hgoto s (H407b l r i)))
  | H407b l r i => Some (do nd <- node s i; do part <- positions l r; Ret (hgoto s (H407acc l r (ANew (n_proof nd) part))))
  | H407acc l r a =>
      match result_of a with
      | Some c => Some (Ret (hgoto s (H407s c)))
      | None => match astep (r_mem s) (r_own s) a with
                | Some o => Some (do (m, own, a') <- o; Ret (hput_mem s m own (H407acc l r a')))
                | None => None
                end
      end
  | _ => None
  end.
(** sendChan, iterChan (both goroutines take part), ctx.Done() *)
Definition csend (s : R) : option R :=
  match r_pc s, r_hp s with
  | M464 i l r, H405 => Some (hgoto (goto s (M468 i l r)) (H407a (middle l r) r))
  | _, _ => None
  end.
Definition citer (s : R) : option R :=
  match r_pc s, r_hp s with
  | M473 i l r n, H407s c => Some (hgoto (goto s (M473w i l r n c)) H405)
  | _, _ => None
  end.
Definition cdone (s : R) : option R :=
  match r_hp s with H405 => if r_cancelled s then Some (hgoto s H409) else None | _ => None end.
(** what the rest of the program may do meanwhile: make numbers, and change any that are not the arguments of the
    call and were not made by its two goroutines *)
Definition env (s s' : R) : Prop :=
  exists m, s' = MkR m (r_own s) (r_nodes s) (r_iter s) (r_flag s) (r_pc s) (r_hp s) (r_cancelled s) /\
    length (r_mem s) <= length m /\ forall a, In a (base :: Np :: set ++ r_own s) -> nth_error m a = nth_error (r_mem s) a.

(** a step of the call *)
Inductive pstep (s : R) : R -> Prop :=
| r_main : forall s', mstep s = Some (Ret s') -> pstep s s'
| r_helper : forall s', hstep s = Some (Ret s') -> pstep s s'
| r_send : forall s', csend s = Some s' -> pstep s s'
| r_recv : forall s', citer s = Some s' -> pstep s s'
| r_done : forall s', cdone s = Some s' -> pstep s s'.
(** a state reached from memory m after k steps of the call and any steps of the rest of the program *)
Inductive reached (m : mem) : nat -> R -> Prop :=
| re_start : reached m 0 (rstart m)
| re_step : forall k s s', reached m k s -> pstep s s' -> reached m (S k) s'
| re_env : forall k s s', reached m k s -> env s s' -> reached m k s'.
End Race.
