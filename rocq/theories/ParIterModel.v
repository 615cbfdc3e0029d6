(** Model of ProveMembershipIterParallel and of its goroutines (/repo/accumulator/concurrent.go:321-476).

    Every *big.Int involved is written only by the accumulateNew that creates it, so values are integers
    here; the list nodes and the variable [iter] of proveMembershipIter, which are shared by two
    goroutines, are explicit. A schedule is a list of choices; a step of a goroutine goes from one
    communication to the next, which for proveMembershipIter RaceModel.v and C126 justify. Printing is not modelled. *)
From Coq Require Import ZArith Bool List Arith.
From Verif Require Import GoBig AccModel IterModel ListUpd.
Import ListNotations.
Local Open Scope nat_scope.

(** ** calNumWorkers (concurrent.go:368-378): numCPUs = runtime.NumCPU(); numCPUs + 1 rounds are enough *)
Fixpoint cal_loop (fuel numCPUs numWorkersPowerOfTwo numWorkers : nat) : outcome (nat * nat) :=
  match fuel with
  | O => OutOfFuel
  | S f => if numWorkers <=? numCPUs then cal_loop f numCPUs (numWorkersPowerOfTwo + 1) (numWorkers * 2)
           else Ret (numWorkers / 2, numWorkersPowerOfTwo - 1)
  end.
Definition calNumWorkers (numCPUs : nat) : outcome (nat * nat) := cal_loop (S (S numCPUs)) numCPUs 0 1.

(** ** proveMembershipIter (concurrent.go:385-431): the caller's goroutine and its helper *)
Record wnode := WNode { wl : nat; wr : nat; wp : Z; wn : option nat }.
Definition middle (l r : nat) : nat := l + (r - l) / 2.               (* 463 *)

Inductive wpc :=
| MOuter                              (* 413: for finishFlag *)
| MInner                              (* 416: for iter != nil *)
| MSend (it l r : nat)                (* 464: sendChan <- *)
| MCompute (it l r : nat)             (* 465-470: newProofNode *)
| MRecv (it l r : nat) (nw : wnode)   (* 471-475: iter.proof = <-iterChan *)
| MCollect (proofs : list Z)          (* 427-429 *)
| MRet (proofs : list Z).             (* 430, cancel() deferred at 400 *)
Inductive hpc :=
| HSelect                             (* 404-411 *)
| HGot (l r : nat)                    (* 406-407: computing *)
| HSend (v : Z)                       (* 407: iterChan <- *)
| HDone.                              (* 408-409 *)
Record W := MkW { w_nodes : list wnode; w_iter : option nat; w_flag : bool; w_pc : wpc; w_hp : hpc; w_cancelled : bool }.

Inductive wchoice :=
| WMain      (* the caller's goroutine, on its own *)
| WHelper    (* the helper, on its own *)
| WSendChan  (* unbuffered sendChan: both *)
| WIterChan  (* unbuffered iterChan: both *)
| WDoneChan. (* the helper sees ctx.Done() *)

Section Worker.
Variable N : Z.
Variable set : list Z.

(** concurrent.go:385-401 *)
Definition wstart (base : Z) (left right : nat) : W :=
  match set with
  | [] => MkW [] None false (MRet []) HDone true                                            (* 386-388 *)
  | _ => MkW [WNode left right base None] (Some 0) true MOuter HSelect false
  end.
Definition wret (s : W) : option (list Z) := match w_pc s with MRet ps => Some ps | _ => None end.

Definition wstep (s : W) (c : wchoice) : option (outcome W) :=
  let at_pc pc := MkW (w_nodes s) (w_iter s) (w_flag s) pc (w_hp s) (w_cancelled s) in
  match c with
  | WMain =>
      match w_pc s with
      | MOuter =>
          if w_flag s then Some (Ret (MkW (w_nodes s) (Some 0) false MInner (w_hp s) (w_cancelled s)))    (* 413-415 *)
          else Some (Ret (MkW (w_nodes s) (Some 0) (w_flag s) (MCollect []) (w_hp s) (w_cancelled s)))    (* 427 *)
      | MInner =>
          match w_iter s with
          | None => Some (Ret (at_pc MOuter))
          | Some i => Some (
              do it <- deref (nth_error (w_nodes s) i);
              if wr it - wl it <=? 1 then Ret (MkW (w_nodes s) (wn it) (w_flag s) MInner (w_hp s) (w_cancelled s))  (* 417-419 *)
              else Ret (at_pc (MSend i (wl it) (wr it))))                                                  (* 421, 461-463 *)
          end
      | MCompute i l r => Some (
          do it <- deref (nth_error (w_nodes s) i);
          do part <- go_slice set l (middle l r);
          Ret (at_pc (MRecv i l r (WNode (middle l r) r (accumulate_val (wp it) N part) (wn it)))))        (* 465-470 *)
      | MCollect ps =>
          match w_iter s with
          | None => Some (Ret (MkW (w_nodes s) (w_iter s) (w_flag s) (MRet ps) (w_hp s) true))
          | Some i => Some (
              do it <- deref (nth_error (w_nodes s) i);
              Ret (MkW (w_nodes s) (wn it) (w_flag s) (MCollect (ps ++ [wp it])) (w_hp s) (w_cancelled s)))
          end
      | _ => None
      end
  | WHelper =>
      match w_hp s with
      | HGot l r => Some (
          do i <- deref (w_iter s);
          do it <- deref (nth_error (w_nodes s) i);
          do part <- go_slice set l r;
          Ret (MkW (w_nodes s) (w_iter s) (w_flag s) (w_pc s) (HSend (accumulate_val (wp it) N part)) (w_cancelled s)))
      | _ => None
      end
  | WSendChan =>
      match w_pc s, w_hp s with
      | MSend i l r, HSelect =>
          Some (Ret (MkW (w_nodes s) (w_iter s) (w_flag s) (MCompute i l r) (HGot (middle l r) r) (w_cancelled s)))
      | _, _ => None
      end
  | WIterChan =>
      match w_pc s, w_hp s with
      | MRecv i l r nw, HSend v =>
          Some (Ret (MkW (upd (w_nodes s) i (WNode l (middle l r) v (Some (length (w_nodes s)))) ++ [nw])
                         (wn nw) true MInner HSelect (w_cancelled s)))                                     (* 471-475, 421-422 *)
      | _, _ => None
      end
  | WDoneChan =>
      match w_hp s with
      | HSelect => if w_cancelled s then Some (Ret (MkW (w_nodes s) (w_iter s) (w_flag s) (w_pc s) HDone (w_cancelled s))) else None
      | _ => None
      end
  end.
End Worker.

(** ** ProveMembershipIterParallel (concurrent.go:323-366) *)
Record pn := PN { nl : nat; nr : nat; np : Z }.

(** goroutines started by initMembershipProofs (433-457) *)
Inductive igo :=
| IStart (b : Z) (l r d : nat)   (* at the beginning of initMembershipProofs *)
| ISpawn (b : Z) (l r d : nat)   (* between the two go statements *)
| IHalf1 (b : Z) (l r d : nat)   (* 447-451 *)
| IHalf2 (b : Z) (l r d : nat)   (* 452-456 *)
| ISend (x : pn)                 (* 439-443: initNodeChan <- *)
| IDone.
(** the worker goroutines (335-341): proveMembershipIter, then receivers <- *)
Inductive xpc := XRun | XSend (proofs : list Z) | XDone.
Record X := MkX { x_nd : pn; x_w : W; x_pc : xpc }.
(** the calling goroutine *)
Inductive ppc :=
| PRange (cnt : nat)              (* 334: range initNodeChan *)
| PGot (x : pn) (cnt : nat)       (* 335: go func *)
| PCheck (cnt : nat)              (* 342-345 *)
| PCollector                      (* 348-349 *)
| PWait                           (* 365: <-proofChan *)
| PRet (proofs : list (option Z)).
(** the collecting goroutine (349-363) *)
Inductive kpc :=
| KNone
| KRange (cnt : nat) (proofs : list (option Z))
| KClose (proofs : list (option Z))
| KSend (proofs : list (option Z))
| KDone.
Record B := MkB { b_init : list igo; b_chan : list pn; b_closed : bool; b_main : ppc; b_workers : list X;
                  b_recv : list (nat * nat * list Z); b_rclosed : bool; b_coll : kpc }.

Inductive bchoice :=
| CInit (k : nat)                 (* an initialisation goroutine *)
| CMain                           (* the calling goroutine *)
| CWork (k : nat) (c : wchoice)   (* inside proveMembershipIter of worker k *)
| CXRet (k : nat)                 (* worker k: proveMembershipIter has returned *)
| CXSend (k : nat)                (* worker k sends on receivers *)
| CColl                           (* the collecting goroutine *)
| CProof.                         (* unbuffered proofChan: collecting goroutine and caller *)

(** copy(proofs[l:r], ps) *)
Definition copy_into (proofs : list (option Z)) (l r : nat) (ps : list Z) : outcome (list (option Z)) :=
  do dst <- go_slice proofs l r;
  let src := firstn (length dst) (map Some ps) in
  Ret (firstn l proofs ++ src ++ skipn (l + length src) proofs).

Section Big.
Variable N : Z.
Variable set : list Z.
Variable numWorkers powerOfTwo : nat.

Definition bstart (base : Z) : B :=                                                       (* 328-333 *)
  MkB [IStart base 0 (length set) 0] [] false (PRange 0) [] [] false KNone.
Definition bret (s : B) : option (list (option Z)) := match b_main s with PRet ps => Some ps | _ => None end.

Definition istep (s : B) (k : nat) (g : igo) : option (outcome B) :=
  let goto g' spawned := MkB (upd (b_init s) k g' ++ spawned) (b_chan s) (b_closed s) (b_main s) (b_workers s) (b_recv s) (b_rclosed s) (b_coll s) in
  match g with
  | IStart b l r d =>
      if powerOfTwo <? d then Some (Ret (goto IDone []))                                    (* 435-437 *)
      else if d =? powerOfTwo then Some (Ret (goto (ISend (PN l r b)) []))                  (* 438 *)
      else Some (Ret (goto (ISpawn b l r d) [IHalf1 b l r d]))                              (* 445-446 *)
  | ISpawn b l r d => Some (Ret (goto IDone [IHalf2 b l r d]))                              (* 451 *)
  | IHalf1 b l r d => Some (
      do part <- go_slice set l (middle l r);
      Ret (goto IDone [IStart (accumulate_val b N part) (middle l r) r (d + 1)]))           (* 447-449 *)
  | IHalf2 b l r d => Some (
      do part <- go_slice set (middle l r) r;
      Ret (goto IDone [IStart (accumulate_val b N part) l (middle l r) (d + 1)]))           (* 452-454 *)
  | ISend x =>                                                                              (* 439-443 *)
      if b_closed s then Some Panic
      else if length (b_chan s) <? numWorkers
           then Some (Ret (MkB (upd (b_init s) k IDone) (b_chan s ++ [x]) (b_closed s) (b_main s) (b_workers s) (b_recv s) (b_rclosed s) (b_coll s)))
           else None
  | IDone => None
  end.

Definition bstep (s : B) (c : bchoice) : option (outcome B) :=
  let main p := MkB (b_init s) (b_chan s) (b_closed s) p (b_workers s) (b_recv s) (b_rclosed s) (b_coll s) in
  let workers ws := MkB (b_init s) (b_chan s) (b_closed s) (b_main s) ws (b_recv s) (b_rclosed s) (b_coll s) in
  match c with
  | CInit k => match nth_error (b_init s) k with Some g => istep s k g | None => None end
  | CMain =>
      match b_main s with
      | PRange cnt =>
          match b_chan s with
          | x :: rest => Some (Ret (MkB (b_init s) rest (b_closed s) (PGot x cnt) (b_workers s) (b_recv s) (b_rclosed s) (b_coll s)))
          | [] => if b_closed s then Some (Ret (main PCollector)) else None
          end
      | PGot x cnt =>
          Some (Ret (MkB (b_init s) (b_chan s) (b_closed s) (PCheck (cnt + 1))
                         (b_workers s ++ [MkX x (wstart set (np x) (nl x) (nr x)) XRun]) (b_recv s) (b_rclosed s) (b_coll s)))
      | PCheck cnt =>
          if cnt =? numWorkers then
            if b_closed s then Some Panic
            else Some (Ret (MkB (b_init s) (b_chan s) true (PRange cnt) (b_workers s) (b_recv s) (b_rclosed s) (b_coll s)))
          else Some (Ret (main (PRange cnt)))
      | PCollector =>
          Some (Ret (MkB (b_init s) (b_chan s) (b_closed s) PWait (b_workers s) (b_recv s) (b_rclosed s) (KRange 0 (repeat None (length set)))))
      | _ => None
      end
  | CWork k c =>
      match nth_error (b_workers s) k with
      | Some x => match wstep N set (x_w x) c with
                  | Some o => Some (do w <- o; Ret (workers (upd (b_workers s) k (MkX (x_nd x) w (x_pc x)))))
                  | None => None
                  end
      | None => None
      end
  | CXRet k =>
      match nth_error (b_workers s) k with
      | Some (MkX x w XRun) => match wret w with
                               | Some ps => Some (Ret (workers (upd (b_workers s) k (MkX x w (XSend ps)))))
                               | None => None
                               end
      | _ => None
      end
  | CXSend k =>
      match nth_error (b_workers s) k with
      | Some (MkX x w (XSend ps)) =>
          if b_rclosed s then Some Panic
          else if length (b_recv s) <? numWorkers
               then Some (Ret (MkB (b_init s) (b_chan s) (b_closed s) (b_main s) (upd (b_workers s) k (MkX x w XDone))
                                   (b_recv s ++ [(nl x, nr x, ps)]) (b_rclosed s) (b_coll s)))
               else None
      | _ => None
      end
  | CColl =>
      let coll rest rclosed kk := MkB (b_init s) (b_chan s) (b_closed s) (b_main s) (b_workers s) rest rclosed kk in
      match b_coll s with
      | KRange cnt proofs =>
          match b_recv s with
          | (l, r, ps) :: rest => Some (
              do proofs' <- copy_into proofs l r ps;                                         (* 353 *)
              Ret (coll rest (b_rclosed s) (if cnt + 1 =? numWorkers then KClose proofs' else KRange (cnt + 1) proofs')))
          | [] => if b_rclosed s then Some (Ret (coll [] (b_rclosed s) KDone)) else None
          end
      | KClose proofs => if b_rclosed s then Some Panic else Some (Ret (coll (b_recv s) true (KSend proofs)))
      | _ => None
      end
  | CProof =>
      match b_main s, b_coll s with
      | PWait, KSend proofs =>
          Some (Ret (MkB (b_init s) (b_chan s) (b_closed s) (PRet proofs) (b_workers s) (b_recv s) (b_rclosed s) KDone))
      | _, _ => None
      end
  end.
End Big.

(** the whole function: either the sequential one on small sets (325-327), or the goroutines; the result
    slice may contain nil *)
Inductive call := Sequential (v : outcome (list Z)) | Goroutines (N : Z) (set : list Z) (numWorkers powerOfTwo : nat) (s : B).
Definition ProveMembershipIterParallel (numCPUs : nat) (base N : Z) (set : list Z) : outcome call :=
  do (numWorkers, numWorkerPowerOfTwo) <- calNumWorkers numCPUs;
  if length set <=? numWorkers * 2 then Ret (Sequential (ProveMembershipIter_val base N set))
  else Ret (Goroutines N set numWorkers numWorkerPowerOfTwo (bstart set base)).
