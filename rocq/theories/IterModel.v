(** Model of ProveMembershipIter (/repo/accumulator/accumulator.go:127-184, 231-255) with explicit
    memory: big integers live in cells that Exp overwrites in place, list nodes live in a node
    store and point to each other. *)
From Coq Require Import ZArith Bool List.
From Verif Require Import GoBig AccModel.
Import ListNotations.
Open Scope Z_scope.

(** ** memory of big integers: address = index *)
Definition mem := list Z.
Definition addr := nat.
Definition load (m : mem) (a : addr) : outcome Z := deref (nth_error m a).
Definition store (m : mem) (a : addr) (v : Z) : mem := firstn a m ++ v :: skipn (S a) m.
Definition alloc (m : mem) (v : Z) : mem * addr := (m ++ [v], length m).

(** accumulator.go:231-236 accumulate: g.Exp(g, v, N) for each v, in place; returns g itself.
    (For exponents that are not negative math/big never writes into words shared with another Int
    here: Exp allocates when the receiver aliases the base. WordModel.v has the words.) *)
Fixpoint accumulate (m : mem) (g N : addr) (set : list addr) : outcome mem :=
  match set with
  | [] => Ret m
  | a :: r =>
      do x <- load m g;
      do e <- load m a;
      do n <- load m N;
      accumulate (store m g (exp_recv x x e n)) g N r
  end.

(** accumulator.go:252-255 accumulateNew: copy g into a new cell, accumulate there *)
Definition accumulateNew (m : mem) (g N : addr) (set : list addr) : outcome (mem * addr) :=
  do x <- load m g;
  let '(m1, a) := alloc m x in
  do m2 <- accumulate m1 a N set;
  Ret (m2, a).

(** accumulator.go:128-133 proofNode *)
Record pnode := PNode { left : nat; right : nat; proof : addr; next : option nat }.
Record state := State { cells : mem; nodes : list pnode }.

Definition set_node (l : list pnode) (i : nat) (nd : pnode) : list pnode :=
  firstn i l ++ nd :: skipn (S i) l.

(** accumulator.go:169-184 insertNewProofNode *)
Definition insertNewProofNode (st : state) (iter : nat) (N : addr) (set : list addr)
  : outcome (state * option nat) :=
  do it <- deref (nth_error (nodes st) iter);
  let l := left it in
  let r := right it in
  let mid := (l + (r - l) / 2)%nat in                                (* 172 *)
  do sl <- go_slice set l mid;
  do sr <- go_slice set mid r;
  do (m1, p1) <- accumulateNew (cells st) (proof it) N sl;          (* 176 *)
  let newNode := PNode mid r p1 (next it) in                         (* 173-178 *)
  do m2 <- accumulate m1 (proof it) N sr;                            (* 181, in place *)
  let newId := length (nodes st) in
  let it' := PNode l mid (proof it) (Some newId) in                  (* 179-182 *)
  Ret (State m2 (set_node (nodes st) iter it' ++ [newNode]), next newNode). (* 183 *)

(** accumulator.go:152-159, one pass over the list *)
Fixpoint pass (fuel : nat) (st : state) (iter : option nat) (flag : bool) (N : addr) (set : list addr)
  : outcome (state * bool) :=
  match iter with
  | None => Ret (st, flag)
  | Some i =>
      match fuel with
      | O => OutOfFuel
      | S f =>
          do it <- deref (nth_error (nodes st) i);
          if (right it - left it <=? 1)%nat then pass f st (next it) flag N set      (* 153-156 *)
          else do (st', i') <- insertNewProofNode st i N set; pass f st' i' true N set (* 157-158 *)
      end
  end.

(** accumulator.go:149-160, passes until nothing is split *)
Fixpoint passes (fuel : nat) (st : state) (header : nat) (N : addr) (set : list addr) : outcome state :=
  match fuel with
  | O => OutOfFuel
  | S f =>
      do (st', flag) <- pass (S (length set)) st (Some header) false N set;
      if flag then passes f st' header N set else Ret st'
  end.

(** accumulator.go:162-166, collect the proofs *)
Fixpoint collect (fuel : nat) (nds : list pnode) (iter : option nat) : outcome (list addr) :=
  match iter with
  | None => Ret []
  | Some i =>
      match fuel with
      | O => OutOfFuel
      | S f => do it <- deref (nth_error nds i); do r <- collect f nds (next it); Ret (proof it :: r)
      end
  end.

(** accumulator.go:136-167 ProveMembershipIter: base is passed by value (a new cell).
    Returns the new memory and the addresses of the proofs. *)
Definition ProveMembershipIter (m : mem) (base : Z) (N : addr) (set : list addr)
  : outcome (mem * list addr) :=
  match set with
  | [] => Ret (m, [])
  | _ =>
      let '(m1, b) := alloc m base in
      let st := State m1 [PNode 0 (length set) b None] in
      do st' <- passes (S (length set)) st 0 N set;
      do ps <- collect (S (length set)) (nodes st') (Some 0%nat);
      Ret (cells st', ps)
  end.

(** read back a list of addresses *)
Definition load_all (m : mem) (l : list addr) : outcome (list Z) := map_outcome (load m) l.

(** The call as its caller sees it when it only looks at values: the representatives and N are
    given as integers, put in memory, and the proofs are read back. *)
Definition ProveMembershipIter_val (base N : Z) (set : list Z) : outcome (list Z) :=
  do (m, ps) <- ProveMembershipIter (N :: set) base 0%nat (seq 1 (length set));
  load_all m ps.

(** accumulator.go:62-70 AccAndProveIter after GenRepresentatives *)
Definition AccAndProveIter_rep (G N : Z) (rep : list Z) : outcome (Z * list Z) :=
  do proofs <- ProveMembershipIter_val G N rep;
  finish_acc N rep proofs.
