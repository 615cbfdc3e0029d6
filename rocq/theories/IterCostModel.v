(** The functions of IterModel.v once more, with a record of the exponentiations they do, in the manner of CostModel.v.

    The outcomes are those of IterModel.v (theorem c_Iter_outcome), so this file adds the record and nothing else. Each
    call of Int.Exp is one [Exp]; copying an integer (Int.Set) and building the list are not recorded. *)
From Coq Require Import ZArith Bool List.
From Verif Require Import GoBig AccModel IterModel ParIterModel CostModel.
Import ListNotations.
Open Scope Z_scope.

(** accumulator.go:231-236 *)
Fixpoint c_accumulate (m : mem) (g N : addr) (set : list addr) : costed mem :=
  match set with
  | [] => free (Ret m)
  | a :: r =>
      cdo x <- free (load m g);
      cdo e <- free (load m a);
      cdo n <- free (load m N);
      cdo y <- (Ret (exp_recv x x e n), [Exp e]);
      c_accumulate (store m g y) g N r
  end.
(** accumulator.go:252-255 *)
Definition c_accumulateNew (m : mem) (g N : addr) (set : list addr) : costed (mem * addr) :=
  cdo x <- free (load m g);
  let '(m1, a) := alloc m x in
  cdo m2 <- c_accumulate m1 a N set;
  free (Ret (m2, a)).
(** accumulator.go:169-184 *)
Definition c_insertNewProofNode (st : state) (iter : nat) (N : addr) (set : list addr) : costed (state * option nat) :=
  cdo it <- free (deref (nth_error (nodes st) iter));
  let l := IterModel.left it in
  let r := right it in
  let mid := (l + (r - l) / 2)%nat in
  cdo sl <- free (go_slice set l mid);
  cdo sr <- free (go_slice set mid r);
  cdo (m1, p1) <- c_accumulateNew (cells st) (proof it) N sl;
  let newNode := PNode mid r p1 (next it) in
  cdo m2 <- c_accumulate m1 (proof it) N sr;
  let newId := length (nodes st) in
  let it' := PNode l mid (proof it) (Some newId) in
  free (Ret (State m2 (set_node (nodes st) iter it' ++ [newNode]), next newNode)).
(** accumulator.go:152-159 *)
Fixpoint c_pass (fuel : nat) (st : state) (iter : option nat) (flag : bool) (N : addr) (set : list addr) : costed (state * bool) :=
  match iter with
  | None => free (Ret (st, flag))
  | Some i =>
      match fuel with
      | O => free OutOfFuel
      | S f =>
          cdo it <- free (deref (nth_error (nodes st) i));
          if (right it - IterModel.left it <=? 1)%nat then c_pass f st (next it) flag N set
          else cdo (st', i') <- c_insertNewProofNode st i N set; c_pass f st' i' true N set
      end
  end.
(** accumulator.go:149-160 *)
Fixpoint c_passes (fuel : nat) (st : state) (header : nat) (N : addr) (set : list addr) : costed state :=
  match fuel with
  | O => free OutOfFuel
  | S f =>
      cdo (st', flag) <- c_pass (S (length set)) st (Some header) false N set;
      if flag then c_passes f st' header N set else free (Ret st')
  end.
(** accumulator.go:136-167 *)
Definition c_ProveMembershipIter (m : mem) (base : Z) (N : addr) (set : list addr) : costed (mem * list addr) :=
  match set with
  | [] => free (Ret (m, []))
  | _ =>
      let '(m1, b) := alloc m base in
      let st := State m1 [PNode 0 (length set) b None] in
      cdo st' <- c_passes (S (length set)) st 0 N set;
      cdo ps <- free (collect (S (length set)) (nodes st') (Some 0%nat));
      free (Ret (cells st', ps))
  end.

Lemma c_accumulate_outcome : forall set m g N, fst (c_accumulate m g N set) = accumulate m g N set.
Proof.
  induction set as [|a set IH]; intros m g N; [reflexivity|]. cbn [c_accumulate accumulate].
  repeat (apply cbind_outcome; [reflexivity|intros]). cbn [cbind]. rewrite <- IH. now destruct (c_accumulate _ _ _ _).
Qed.
Lemma c_accumulateNew_outcome : forall m g N set, fst (c_accumulateNew m g N set) = accumulateNew m g N set.
Proof. intros. unfold c_accumulateNew, accumulateNew. apply cbind_outcome; [reflexivity|intros x]. cbn [alloc]. apply cbind_outcome; [apply c_accumulate_outcome|reflexivity]. Qed.
Lemma c_insert_outcome : forall st i N set, fst (c_insertNewProofNode st i N set) = insertNewProofNode st i N set.
Proof.
  intros. unfold c_insertNewProofNode, insertNewProofNode. repeat (apply cbind_outcome; [reflexivity|intros]).
  apply cbind_outcome; [apply c_accumulateNew_outcome|intros [m1 p1]]. apply cbind_outcome; [apply c_accumulate_outcome|reflexivity].
Qed.
Lemma c_pass_outcome : forall f st it flag N set, fst (c_pass f st it flag N set) = pass f st it flag N set.
Proof.
  induction f as [|f IH]; intros st it flag N set; cbn [c_pass pass]; (destruct it as [i|]; [|reflexivity]); [reflexivity|].
  apply cbind_outcome; [reflexivity|intros nd]. destruct (_ <=? _)%nat; [apply IH|]. apply cbind_outcome; [apply c_insert_outcome|intros [st' i']; apply IH].
Qed.
Lemma c_passes_outcome : forall f st h N set, fst (c_passes f st h N set) = passes f st h N set.
Proof.
  induction f as [|f IH]; intros st h N set; cbn [c_passes passes]; [reflexivity|]. apply cbind_outcome; [apply c_pass_outcome|intros [st' [|]]]; [apply IH|reflexivity].
Qed.
Theorem c_Iter_outcome : forall m base N set, fst (c_ProveMembershipIter m base N set) = ProveMembershipIter m base N set.
Proof.
  intros m base N [|a set]; [reflexivity|]. unfold c_ProveMembershipIter, ProveMembershipIter. cbn [alloc]. apply cbind_outcome; [apply c_passes_outcome|intros st].
  apply cbind_outcome; [reflexivity|reflexivity].
Qed.


(** ** The goroutines of ParIterModel.v: the exponentiations of a step
    accumulate_val does one exponentiation per element of its slice (concurrent.go:407, 447, 452, 468 call accumulateNew). *)
Section Parallel.
Variable set : list Z.
Definition part_ops (l r : nat) : list op := match go_slice set l r with Ret part => map Exp part | _ => [] end.
Definition w_ops (s : W) (c : wchoice) : list op :=
  match c with
  | WMain => match w_pc s with MCompute _ l r => part_ops l (middle l r) | _ => [] end
  | WHelper => match w_hp s with HGot l r => part_ops l r | _ => [] end
  | _ => []
  end.
Definition i_ops (g : igo) : list op :=
  match g with
  | IHalf1 _ l r _ => part_ops l (middle l r)
  | IHalf2 _ l r _ => part_ops (middle l r) r
  | _ => []
  end.
Definition b_ops (s : B) (c : bchoice) : list op :=
  match c with
  | CInit k => match nth_error (b_init s) k with Some g => i_ops g | None => [] end
  | CWork k c => match nth_error (b_workers s) k with Some x => w_ops (x_w x) c | None => [] end
  | _ => []
  end.
(** the operations of a whole run *)
Fixpoint b_spent (step : B -> bchoice -> option (outcome B)) (st : outcome B) (sched : list bchoice) : list op :=
  match sched, st with
  | c :: r, Ret s => match step s c with Some st' => b_ops s c ++ b_spent step st' r | None => [] end
  | _, _ => []
  end.
End Parallel.
