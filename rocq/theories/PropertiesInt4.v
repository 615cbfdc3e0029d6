(** Theorems for properties C107-C110: the number groups as memory cells, their printed form, and the parameters of the universal hash. *)
From Coq Require Import ZArith Znumtheory Bool Lia Ascii String List Permutation.
From Verif Require Import GoBig GoBigFacts Spec StrFacts SquaresModel SquaresProofs HashModel RandModel RandProofs PropertiesRand Int4Model.
Import ListNotations.
Open Scope Z_scope.

(** ** C107 *)
(** *** Specification *)
Definition value (h : cells) (p : ptr) : Z := match p with Some c => h c | None => 0 end.
Definition holds_abs (ws : list nat) (h h' : cells) : Prop := forall c, h' c = if in_dec Nat.eq_dec c ws then Z.abs (h c) else h c.
Fixpoint descending (l : list Z) : Prop := match l with a :: ((b :: _) as r) => b <= a /\ descending r | _ => True end.

Lemma put_same : forall h c v, put h c v c = v.
Proof. intros. unfold put. now rewrite Nat.eqb_refl. Qed.
Lemma put_other : forall h c v d, d <> c -> put h c v d = h d.
Proof. intros h c v d H. unfold put. destruct (Nat.eqb_spec d c); [contradiction|reflexivity]. Qed.
Lemma holds_abs_put : forall ws h h' c, holds_abs ws h h' -> holds_abs (ws ++ [c]) h (put h' c (Z.abs (h' c))).
Proof.
  intros ws h h' c H d. destruct (Nat.eq_dec d c) as [->|N].
  - rewrite put_same, H. destruct (in_dec Nat.eq_dec c (ws ++ [c])) as [_|K]; [|exfalso; apply K, in_or_app; right; left; reflexivity].
    destruct (in_dec Nat.eq_dec c ws); lia.
  - rewrite put_other, H by assumption. destruct (in_dec Nat.eq_dec d ws) as [I|I], (in_dec Nat.eq_dec d (ws ++ [c])) as [J|J]; try reflexivity.
    + exfalso. apply J, in_or_app. now left.
    + apply in_app_or in J. destruct J as [J|[J|[]]]; [contradiction|congruence].
Qed.
Lemma order_some : forall h a b, order h (Some a) (Some b) = Ret (if h a <? h b then (Some b, Some a) else (Some a, Some b)).
Proof. reflexivity. Qed.

Ltac perm_step := match goal with
  | |- Permutation [] [] => apply perm_nil
  | |- Permutation (?x :: _) (?x :: _) => apply perm_skip
  | |- Permutation (?x :: _) (?a :: ?x :: ?m) => apply (Permutation_cons_app [a] m); cbn [app]
  | |- Permutation (?x :: _) (?a :: ?b :: ?x :: ?m) => apply (Permutation_cons_app [a; b] m); cbn [app]
  | |- Permutation (?x :: _) (?a :: ?b :: ?c :: ?x :: ?m) => apply (Permutation_cons_app [a; b; c] m); cbn [app]
  end.
Ltac ordered g := repeat (rewrite ?order_some; cbn [bind]; match goal with |- context [g ?x <? g ?y] => destruct (g x <? g y) end); cbn [bind].

(** The groups hold the caller's own cells, reordered, and the caller's numbers have become absolute values, whichever
    of the arguments are the same cell. The values are those of the value model used elsewhere (C40). *)
Theorem C107_new : forall h w1 w2 w3 w4,
  (exists h' a b c d, NewInt4_cells h (Some w1) (Some w2) (Some w3) (Some w4) = Ret (h', (Some a, Some b, Some c, Some d)) /\
     Permutation [w1; w2; w3; w4] [a; b; c; d] /\ holds_abs [w1; w2; w3; w4] h h' /\ descending [h' a; h' b; h' c; h' d] /\
     (h' a, h' b, h' c, h' d) = NewInt4 (h w1) (h w2) (h w3) (h w4)) /\
  (exists h' a b c, NewInt3_cells h (Some w1) (Some w2) (Some w3) = Ret (h', (Some a, Some b, Some c)) /\
     Permutation [w1; w2; w3] [a; b; c] /\ holds_abs [w1; w2; w3] h h' /\ descending [h' a; h' b; h' c] /\
     (h' a, h' b, h' c) = NewInt3 (h w1) (h w2) (h w3)).
Proof.
  intros h w1 w2 w3 w4.
  assert (H0 : holds_abs [] h h) by (intros c; reflexivity).
  assert (V : forall ws g c, holds_abs ws h g -> In c ws -> g c = Z.abs (h c)).
  { intros ws g c H I. rewrite H. destruct (in_dec Nat.eq_dec c ws); [reflexivity|contradiction]. }
  split.
  - unfold NewInt4_cells, abs_cell. cbn [deref bind].
    pose proof (holds_abs_put _ _ _ w1 H0) as H1. set (h1 := put h w1 _) in *. pose proof (holds_abs_put _ _ _ w2 H1) as H2. set (h2 := put h1 w2 _) in *.
    pose proof (holds_abs_put _ _ _ w3 H2) as H3. set (h3 := put h2 w3 _) in *. pose proof (holds_abs_put _ _ _ w4 H3) as H4. set (h4 := put h3 w4 _) in *.
    cbn [app] in H4. clearbody h4. clear h3 H3 h2 H2 h1 H1.
    pose proof (V _ _ w1 H4 ltac:(cbn; tauto)) as E1. pose proof (V _ _ w2 H4 ltac:(cbn; tauto)) as E2. pose proof (V _ _ w3 H4 ltac:(cbn; tauto)) as E3.
    pose proof (V _ _ w4 H4 ltac:(cbn; tauto)) as E4.
    enough (exists a b c d, (do (w1, w2) <- order h4 (Some w1) (Some w2); do (w1, w3) <- order h4 w1 (Some w3); do (w1, w4) <- order h4 w1 (Some w4);
        do (w2, w3) <- order h4 w2 w3; do (w2, w4) <- order h4 w2 w4; do (w3, w4) <- order h4 w3 w4; Ret (h4, (w1, w2, w3, w4))) =
        Ret (h4, (Some a, Some b, Some c, Some d)) /\ Permutation [w1; w2; w3; w4] [a; b; c; d] /\
        (h4 a, h4 b, h4 c, h4 d) = NewInt4 (h w1) (h w2) (h w3) (h w4)) as (a & b & c & d & R & P & W).
    { exists h4, a, b, c, d. split; [exact R|]. split; [exact P|]. split; [exact H4|]. split; [|exact W].
      pose proof (NewInt4_sorted (h w1) (h w2) (h w3) (h w4)) as S. rewrite <- W in S. cbn. lia. }
    unfold NewInt4, cmp_swap. rewrite <- E1, <- E2, <- E3, <- E4. clear.
    ordered h4; (eexists _, _, _, _; split; [reflexivity|split; [|reflexivity]]); repeat perm_step.
  - unfold NewInt3_cells, abs_cell. cbn [deref bind].
    pose proof (holds_abs_put _ _ _ w1 H0) as H1. set (h1 := put h w1 _) in *. pose proof (holds_abs_put _ _ _ w2 H1) as H2. set (h2 := put h1 w2 _) in *.
    pose proof (holds_abs_put _ _ _ w3 H2) as H3. set (h3 := put h2 w3 _) in *. cbn [app] in H3. clearbody h3. clear h2 H2 h1 H1.
    pose proof (V _ _ w1 H3 ltac:(cbn; tauto)) as E1. pose proof (V _ _ w2 H3 ltac:(cbn; tauto)) as E2. pose proof (V _ _ w3 H3 ltac:(cbn; tauto)) as E3.
    enough (exists a b c, (do (w1, w2) <- order h3 (Some w1) (Some w2); do (w1, w3) <- order h3 w1 (Some w3); do (w2, w3) <- order h3 w2 w3;
        Ret (h3, (w1, w2, w3))) = Ret (h3, (Some a, Some b, Some c)) /\ Permutation [w1; w2; w3] [a; b; c] /\
        (h3 a, h3 b, h3 c) = NewInt3 (h w1) (h w2) (h w3)) as (a & b & c & R & P & W).
    { exists h3, a, b, c. split; [exact R|]. split; [exact P|]. split; [exact H3|]. split; [|exact W].
      pose proof (NewInt3_sorted (h w1) (h w2) (h w3)) as S. rewrite <- W in S. cbn. lia. }
    unfold NewInt3, cmp_swap. rewrite <- E1, <- E2, <- E3. clear.
    ordered h3; (eexists _, _, _; split; [reflexivity|split; [|reflexivity]]); repeat perm_step.
Qed.

Lemma ptr_dec : forall x y : ptr, {x = y} + {x <> y}.
Proof. decide equality. apply Nat.eq_dec. Qed.
(** how often a cell occurs in a group *)
Definition times (c : nat) (f : group4) : nat := count_occ ptr_dec (entries4 f) (Some c).
Definition no_nil (f : group4) : Prop := ~ In None (entries4 f).

Lemma each_mul : forall l n h, ~ In None l -> ~ In (Some n) l ->
  exists h', each_entry (fun x y => Ret (x * y)) l (Some n) h = Ret h' /\ forall c, h' c = h c * h n ^ Z.of_nat (count_occ ptr_dec l (Some c)).
Proof.
  induction l as [|e l IH]; intros n h Hn Hm; [exists h; split; [reflexivity|]; intros c; cbn; lia|].
  destruct e as [c|]; [|exfalso; apply Hn; now left]. cbn [each_entry deref bind].
  assert (N : n <> c) by (intros ->; apply Hm; now left).
  destruct (IH n (put h c (h c * h n)) ltac:(intros X; apply Hn; now right) ltac:(intros X; apply Hm; now right)) as (h' & E & V).
  exists h'. split; [exact E|]. intros d. rewrite V, (put_other h c _ n N). destruct (Nat.eq_dec d c) as [->|D].
  - rewrite put_same, count_occ_cons_eq by reflexivity. rewrite Nat2Z.inj_succ, Z.pow_succ_r by lia. symmetry. apply Z.mul_assoc.
  - rewrite put_other, count_occ_cons_neq by congruence. reflexivity.
Qed.
(** Mul with a factor that is not one of the entries: every cell is multiplied once per occurrence. So all four numbers are
    multiplied by n exactly if no cell occurs twice, up to the numbers for which it makes no difference. *)
Theorem C107_mul_partial : forall f n h, no_nil f -> ~ In (Some n) (entries4 f) ->
  exists h', Int4_Mul f (Some n) h = Ret h' /\ (forall c, h' c = h c * h n ^ Z.of_nat (times c f)) /\
  ((forall e, In e (entries4 f) -> value h' e = value h e * h n) <->
   (forall c, In (Some c) (entries4 f) -> times c f = 1%nat \/ h c = 0 \/ h n = 0 \/ h n = 1 \/ (h n = -1 /\ times c f = 3%nat))).
Proof.
  intros f n h Hn Hm. destruct (each_mul (entries4 f) n h Hn Hm) as (h' & E & V). exists h'. split; [exact E|]. split; [exact V|].
  assert (L : forall c, In (Some c) (entries4 f) -> (1 <= times c f <= 4)%nat).
  { intros c Hc. split; [apply (count_occ_In ptr_dec); exact Hc|]. unfold times. pose proof (count_occ_bound ptr_dec (Some c) (entries4 f)) as B.
    destruct f as [[[? ?] ?] ?]. exact B. }
  assert (K : forall x v k, (1 <= k <= 4)%nat -> (x * v ^ Z.of_nat k = x * v <-> k = 1%nat \/ x = 0 \/ v = 0 \/ v = 1 \/ (v = -1 /\ k = 3%nat))).
  { intros x v k Hk. destruct k as [|[|[|[|[|k]]]]]; [lia| | | | |lia]; cbn [Z.of_nat Pos.of_succ_nat Pos.succ]; split; intros H.
    1: now left. 1: lia.
    1: { replace (v ^ 2) with (v * v) in H by ring. assert (D : x * (v * (v - 1)) = 0) by lia. apply Z.mul_eq_0 in D. destruct D as [D|D]; [lia|].
         apply Z.mul_eq_0 in D. lia. }
    1: { destruct H as [H|[->|[->|[->|H]]]]; lia. }
    1: { replace (v ^ 3) with (v * v * v) in H by ring. assert (D : x * (v * ((v - 1) * (v + 1))) = 0) by lia. apply Z.mul_eq_0 in D. destruct D as [D|D]; [lia|].
         apply Z.mul_eq_0 in D. destruct D as [D|D]; [lia|]. apply Z.mul_eq_0 in D. lia. }
    1: { destruct H as [H|[->|[->|[->|[-> _]]]]]; lia. }
    1: { replace (v ^ 4) with (v * v * v * v) in H by ring. assert (D : x * (v * ((v - 1) * (v * v + v + 1))) = 0) by lia. apply Z.mul_eq_0 in D. destruct D as [D|D]; [lia|].
         apply Z.mul_eq_0 in D. destruct D as [D|D]; [lia|]. apply Z.mul_eq_0 in D. destruct D as [D|D]; [lia|nia]. }
    1: { destruct H as [H|[->|[->|[->|H]]]]; lia. } }
  split.
  - intros H c Hc. specialize (H _ Hc). cbn [value] in H. rewrite V in H. apply K; [apply L; exact Hc|exact H].
  - intros H [c|] He; [|contradiction]. cbn [value]. rewrite V. apply K; [apply L; exact He|apply H; exact He].
Qed.
Lemma nodup_parts : forall (l m : list ptr), NoDup (l ++ m) -> NoDup l /\ NoDup m /\ forall e, In e l -> In e m -> False.
Proof.
  induction l as [|a l IH]; intros m D; [split; [constructor|split; [exact D|intros e []]]|]. inversion_clear D as [|? ? A B].
  destruct (IH m B) as (L & M & J). split; [constructor; [intros X; apply A, in_or_app; now left|exact L]|]. split; [exact M|].
  intros e [<-|X] Y; [apply A, in_or_app; now right|eauto].
Qed.
(** the factor is itself an entry: it is squared when its turn comes, and the entries after it are multiplied by the square *)
Theorem C107_mul_own : forall f n h pre post, no_nil f -> NoDup (entries4 f) -> entries4 f = pre ++ Some n :: post ->
  exists h', Int4_Mul f (Some n) h = Ret h' /\ h' n = h n * h n /\ (forall e, In e pre -> value h' e = value h e * h n) /\
    (forall e, In e post -> value h' e = value h e * (h n * h n)).
Proof.
  intros f n h pre post Hn Hd He. unfold Int4_Mul, no_nil in *. rewrite He in *. clear He f.
  assert (App : forall l m h, each_entry (fun x y => Ret (x * y)) (l ++ m) (Some n) h = (do g <- each_entry (fun x y => Ret (x * y)) l (Some n) h; each_entry (fun x y => Ret (x * y)) m (Some n) g)).
  { induction l as [|e l IH]; intros m g; [reflexivity|]. cbn [app each_entry]. destruct (deref e); cbn [bind]; [|reflexivity..]. apply IH. }
  assert (Nn : forall e, In e (pre ++ Some n :: post) -> e <> None) by (intros e X ->; contradiction).
  apply NoDup_remove in Hd. destruct Hd as [Hd Hx].
  destruct (each_mul pre n h) as (h1 & E1 & V1); [intros X; apply (Nn None); [apply in_or_app; now left|reflexivity]|intros X; apply Hx, in_or_app; now left|].
  assert (C1 : forall l c, NoDup l -> count_occ ptr_dec l (Some c) = if in_dec ptr_dec (Some c) l then 1%nat else 0%nat).
  { intros l c D. destruct (in_dec ptr_dec (Some c) l) as [I|I]; [apply NoDup_count_occ'; assumption|apply count_occ_not_In; assumption]. }
  destruct (nodup_parts _ _ Hd) as (Dpre & Dpost & Disj).
  set (h2 := put h1 n (h1 n * h1 n)).
  destruct (each_mul post n h2) as (h3 & E3 & V3); [intros X; apply (Nn None); [apply in_or_app; right; now right|reflexivity]|intros X; apply Hx, in_or_app; now right|].
  exists h3. split; [rewrite App, E1; cbn [bind each_entry deref]; exact E3|].
  assert (N1 : h1 n = h n). { rewrite V1, C1 by assumption. destruct (in_dec ptr_dec (Some n) pre) as [I|_]; [exfalso; apply Hx, in_or_app; now left|]. cbn. lia. }
  assert (N2 : h2 n = h n * h n) by (unfold h2; now rewrite put_same, N1).
  split; [|split].
  - rewrite V3, C1, N2 by assumption. destruct (in_dec ptr_dec (Some n) post) as [I|_]; [exfalso; apply Hx, in_or_app; now right|]. cbn. lia.
  - intros [c|] I; [|exfalso; apply (Nn None); [apply in_or_app; now left|reflexivity]]. cbn [value]. rewrite V3, C1 by assumption.
    destruct (in_dec ptr_dec (Some c) post) as [J|_]; [exfalso; eauto|]. unfold h2.
    rewrite put_other by (intros ->; apply Hx, in_or_app; now left). rewrite V1, C1 by assumption. destruct (in_dec ptr_dec (Some c) pre); [|contradiction]. cbn [Z.of_nat]. lia.
  - intros [c|] I; [|exfalso; apply (Nn None); [apply in_or_app; right; now right|reflexivity]]. cbn [value]. rewrite V3, C1, N2 by assumption.
    destruct (in_dec ptr_dec (Some c) post) as [_|J]; [|contradiction]. unfold h2.
    rewrite put_other by (intros ->; apply Hx, in_or_app; now right). rewrite V1, C1 by assumption. destruct (in_dec ptr_dec (Some c) pre) as [J|_]; [exfalso; eauto|]. cbn [Z.of_nat Pos.of_succ_nat]. lia.
Qed.
(** a nil entry or a nil factor stops Mul, nothing else does *)
Theorem C107_mul_panics : forall f n h, Int4_Mul f n h = Panic <-> In None (entries4 f) \/ n = None.
Proof.
  intros f n h.
  assert (G : forall l h, each_entry (fun x y => Ret (x * y)) l n h = Panic <-> In None l \/ (n = None /\ l <> [])).
  { induction l as [|e l IH]; intros g; [cbn; split; [discriminate|tauto]|]. cbn [each_entry]. destruct e as [c|]; cbn [deref bind].
    - destruct n as [d|]; cbn [deref bind].
      + rewrite IH. cbn. split; [intros [H|[H _]]; [auto|discriminate]|intros [[H|H]|[H _]]; [discriminate|auto|discriminate]].
      + split; [intros _; right; split; [reflexivity|discriminate]|reflexivity].
    - split; [intros _; left; now left|reflexivity]. }
  unfold Int4_Mul. rewrite G. destruct f as [[[? ?] ?] ?]. cbn [entries4]. split; intros [H|H]; [now left|right; apply H|now left|right; split; [exact H|discriminate]].
Qed.
(** Full statement: Mul multiplies all four numbers by n, for every group that NewInt4 makes. Refuted twice: with one cell given twice,
    and with four different cells and one of them as factor. *)
Definition mem (l : list Z) : cells := fun c => nth c l 0.
Theorem C107_mul_refuted :
  (exists h w1 w2 w3 w4 n h0 f h', NewInt4_cells h w1 w2 w3 w4 = Ret (h0, f) /\ ~ In (Some n) (entries4 f) /\ Int4_Mul f (Some n) h0 = Ret h' /\
     exists e, In e (entries4 f) /\ value h' e <> value h0 e * h0 n) /\
  (exists h w1 w2 w3 w4 n h0 f h', NewInt4_cells h w1 w2 w3 w4 = Ret (h0, f) /\ NoDup (entries4 f) /\ Int4_Mul f (Some n) h0 = Ret h' /\
     exists e, In e (entries4 f) /\ value h' e <> value h0 e * h0 n).
Proof.
  split.
  - exists (mem [5; 6; 7; 10]), (Some 0%nat), (Some 0%nat), (Some 1%nat), (Some 2%nat), 3%nat. eexists _, _, _.
    split; [reflexivity|]. split; [vm_compute; intros [H|[H|[H|[H|[]]]]]; discriminate|]. split; [reflexivity|].
    exists (Some 0%nat). split; [vm_compute; tauto|vm_compute; discriminate].
  - exists (mem [9; 6; 7; 10]), (Some 0%nat), (Some 1%nat), (Some 2%nat), (Some 3%nat), 3%nat. eexists _, _, _.
    split; [reflexivity|]. split; [vm_compute; repeat constructor; cbn; intuition discriminate|]. split; [reflexivity|].
    exists (Some 0%nat). split; [vm_compute; tauto|vm_compute; discriminate].
Qed.
Example C107_case : exists h f h', NewInt4_cells (mem [3; -8; 0; -4; 10]) (Some 0%nat) (Some 1%nat) (Some 2%nat) (Some 3%nat) = Ret (h, f) /\
  f = (Some 1%nat, Some 3%nat, Some 0%nat, Some 2%nat) /\ no_nil f /\ ~ In (Some 4%nat) (entries4 f) /\
  map h (seq 0 5) = [3; 8; 0; 4; 10] /\ Int4_Mul f (Some 4%nat) h = Ret h' /\ map h' (seq 0 5) = [30; 80; 0; 40; 10] /\
  NewInt4_cells h None (Some 0%nat) (Some 1%nat) (Some 2%nat) = Panic.
Proof.
  eexists _, _, _. split; [reflexivity|]. split; [reflexivity|]. split; [vm_compute; intros [H|[H|[H|[H|[]]]]]; discriminate|].
  split; [vm_compute; intros [H|[H|[H|[H|[]]]]]; discriminate|]. split; [reflexivity|]. split; [reflexivity|]. split; reflexivity.
Qed.

(** ** C108 *)
Lemma ediv_self : forall x, x <> 0 -> ediv x x = 1.
Proof.
  intros x H. unfold ediv. destruct (Z.lt_trichotomy x 0) as [L|[L|L]]; [|lia|].
  - rewrite Z.sgn_neg, Z.abs_neq by lia. replace x with ((-1) * (- x)) at 1 by ring. rewrite Z.div_mul by lia. reflexivity.
  - rewrite Z.sgn_pos, Z.abs_eq, Z.div_same by lia. reflexivity.
Qed.
Lemma ediv_mul : forall x y, y <> 0 -> ediv (x * y) y = x.
Proof.
  intros x y H. unfold ediv. destruct (Z.lt_trichotomy y 0) as [L|[L|L]]; [|lia|].
  - rewrite Z.sgn_neg, Z.abs_neq by lia. replace (x * y) with ((- x) * (- y)) by ring. rewrite Z.div_mul by lia. lia.
  - rewrite Z.sgn_pos, Z.abs_eq, Z.div_mul by lia. lia.
Qed.
Lemma iter_inside : forall k (f : Z -> Z) x, Nat.iter k f (f x) = f (Nat.iter k f x).
Proof. induction k as [|k IH]; intros f x; [reflexivity|]. cbn [Nat.iter nat_rect]. change (f (Nat.iter k f (f x)) = f (f (Nat.iter k f x))). now rewrite IH. Qed.
Lemma each_div : forall l n h, ~ In None l -> ~ In (Some n) l -> h n <> 0 ->
  exists h', each_entry go_div l (Some n) h = Ret h' /\ forall c, h' c = Nat.iter (count_occ ptr_dec l (Some c)) (fun x => ediv x (h n)) (h c).
Proof.
  induction l as [|e l IH]; intros n h Hn Hm Hz; [exists h; split; reflexivity|].
  destruct e as [c|]; [|exfalso; apply Hn; now left]. cbn [each_entry deref bind]. unfold go_div at 1. destruct (Z.eqb_spec (h n) 0); [contradiction|]. cbn [bind].
  assert (N : n <> c) by (intros ->; apply Hm; now left).
  destruct (IH n (put h c (ediv (h c) (h n))) ltac:(intros X; apply Hn; now right) ltac:(intros X; apply Hm; now right)) as (h' & E & V); [now rewrite put_other|].
  exists h'. split; [exact E|]. intros d. rewrite V, (put_other h c _ n N). destruct (Nat.eq_dec d c) as [->|D].
  - rewrite put_same, count_occ_cons_eq by reflexivity. exact (iter_inside _ (fun x => ediv x (h n)) (h c)).
  - rewrite put_other, count_occ_cons_neq by congruence. reflexivity.
Qed.
(** Div divides every cell once per occurrence, rounding as big.Int.Div does *)
Theorem C108_div : forall f n h, no_nil f -> ~ In (Some n) (entries4 f) -> h n <> 0 ->
  exists h', Int4_Div f (Some n) h = Ret h' /\ (forall c, h' c = Nat.iter (times c f) (fun x => ediv x (h n)) (h c)) /\
    (0 < h n -> forall c, h' c = h c / h n ^ Z.of_nat (times c f)).
Proof.
  intros f n h Hn Hm Hz. destruct (each_div (entries4 f) n h Hn Hm Hz) as (h' & E & V). exists h'. split; [exact E|]. split; [exact V|].
  intros P c. rewrite V. fold (times c f). generalize (times c f) as k. induction k as [|k IH]; [cbn; now rewrite Z.div_1_r|].
  change (ediv (Nat.iter k (fun x => ediv x (h n)) (h c)) (h n) = h c / h n ^ Z.of_nat (S k)). rewrite IH. unfold ediv. rewrite Z.sgn_pos, Z.abs_eq, Z.mul_1_l by lia. rewrite Nat2Z.inj_succ, Z.pow_succ_r by lia.
  rewrite Z.div_div by (try apply Z.pow_pos_nonneg; lia). f_equal. apply Z.mul_comm.
Qed.
(** Div stops for a nil entry, a nil divisor and the divisor 0, and for nothing else, whether or not the divisor is an entry *)
Theorem C108_div_panics : forall f n h, Int4_Div f n h = Panic <-> In None (entries4 f) \/ n = None \/ value h n = 0.
Proof.
  intros f n h.
  assert (G : forall l h, l <> [] -> each_entry go_div l n h = Panic <-> In None l \/ n = None \/ value h n = 0).
  { induction l as [|e l IH]; intros g Hl; [congruence|]. cbn [each_entry]. destruct e as [c|]; cbn [deref bind]; [|split; [intros _; left; now left|reflexivity]].
    destruct n as [d|]; cbn [deref bind]; [|split; [auto|reflexivity]]. unfold go_div at 1. cbn [value]. destruct (Z.eqb_spec (g d) 0) as [Z0|Z0]; cbn [bind]; [split; auto|].
    destruct l as [|e' l]; [cbn; split; [discriminate|intros [[H|[]]|[H|H]]; congruence]|]. rewrite IH by discriminate. cbn [value].
    assert (P : put g c (ediv (g c) (g d)) d <> 0) by (destruct (Nat.eq_dec d c) as [->|D]; [rewrite put_same, ediv_self by assumption; lia|now rewrite put_other]).
    split; (intros [H|[H|H]]; [left|discriminate|contradiction]); [now right|destruct H as [H|H]; [discriminate|exact H]]. }
  apply G. destruct f as [[[? ?] ?] ?]. discriminate.
Qed.
(** Div undoes Mul if the factor is not 0 and not an entry, even if entries share cells *)
Theorem C108_undo_partial : forall f n h, no_nil f -> ~ In (Some n) (entries4 f) -> h n <> 0 ->
  exists h' h'', Int4_Mul f (Some n) h = Ret h' /\ Int4_Div f (Some n) h' = Ret h'' /\ forall c, h'' c = h c.
Proof.
  intros f n h Hn Hm Hz. destruct (each_mul (entries4 f) n h Hn Hm) as (h' & E & V).
  assert (N : h' n = h n). { rewrite V, (proj1 (count_occ_not_In ptr_dec (entries4 f) (Some n)) Hm). cbn. lia. }
  destruct (each_div (entries4 f) n h' Hn Hm ltac:(congruence)) as (h'' & E' & V').
  exists h', h''. split; [exact E|]. split; [exact E'|]. intros c. rewrite V', N, V. generalize (h c) as x. induction (count_occ ptr_dec (entries4 f) (Some c)) as [|k IH]; intros x.
  - cbn. lia.
  - change (ediv (Nat.iter k (fun y => ediv y (h n)) (x * h n ^ Z.of_nat (S k))) (h n) = x). rewrite <- (iter_inside k (fun y => ediv y (h n))). rewrite Nat2Z.inj_succ, Z.pow_succ_r by lia.
    replace (x * (h n * h n ^ Z.of_nat k)) with (x * h n ^ Z.of_nat k * h n) by (generalize (h n ^ Z.of_nat k); intros; ring). rewrite ediv_mul by assumption. apply IH.
Qed.
(** Full statement: dividing by what was multiplied by gives the numbers back. Refuted: the factor is one of four different cells. *)
Theorem C108_undo_refuted : exists f n h h' h'', no_nil f /\ NoDup (entries4 f) /\ h n <> 0 /\
  Int4_Mul f (Some n) h = Ret h' /\ Int4_Div f (Some n) h' = Ret h'' /\ exists e, In e (entries4 f) /\ value h'' e <> value h e.
Proof.
  exists (Some 0%nat, Some 1%nat, Some 2%nat, Some 3%nat), 3%nat, (mem [9; 6; 7; 2]). eexists _, _.
  split; [vm_compute; intros [H|[H|[H|[H|[]]]]]; discriminate|]. split; [vm_compute; repeat constructor; cbn; intuition discriminate|]. split; [vm_compute; discriminate|].
  split; [reflexivity|]. split; [reflexivity|]. exists (Some 0%nat). split; [vm_compute; tauto|vm_compute; discriminate].
Qed.
Example C108_case : exists h', Int4_Div (Some 0%nat, Some 1%nat, Some 2%nat, Some 2%nat) (Some 3%nat) (mem [9; -6; 7; 2]) = Ret h' /\
  map h' (seq 0 4) = [4; -3; 1; 2] /\ Int4_Div (Some 0%nat, Some 1%nat, Some 2%nat, Some 2%nat) (Some 3%nat) (mem [9; -6; 7; 0]) = Panic.
Proof. eexists. split; [reflexivity|]. split; reflexivity. Qed.

(** ** C109 *)
Fixpoint lacks (a : ascii) (s : string) : Prop := match s with EmptyString => True | String b s => b <> a /\ lacks a s end.
Lemma lacks_list : forall a s, (forall b, In b (list_ascii_of_string s) -> b <> a) -> lacks a s.
Proof. induction s as [|b s IH]; intros H; [exact I|]. split; [apply H; now left|]. apply IH. intros c Hc. apply H. now right. Qed.
Lemma dec_chars : forall x b, In b (list_ascii_of_string (dec x)) -> is_digit b \/ b = "-"%char \/ b = "+"%char.
Proof.
  intros x b H. assert (D : decimal_string (dec x)) by (apply set_string10_decimal; rewrite set_string10_dec; discriminate).
  destruct D as (sign & digits & E & S & _ & F). rewrite E in H. apply in_app_or in H. destruct H as [H|H].
  - destruct S as [->|[->| ->]]; [contradiction|destruct H as [<-|[]]; auto|destruct H as [<-|[]]; auto].
  - left. rewrite Forall_forall in F. auto.
Qed.
Lemma dec_lacks : forall a x, ~ is_digit a -> a <> "-"%char -> a <> "+"%char -> lacks a (dec x).
Proof. intros a x H1 H2 H3. apply lacks_list. intros b Hb ->. destruct (dec_chars _ _ Hb) as [K|[K|K]]; contradiction. Qed.
Lemma big_string_lacks : forall h p a, a = ","%char \/ a = "}"%char -> lacks a (big_string h p).
Proof.
  intros h [c|] a H; cbn [big_string].
  - apply dec_lacks; destruct H as [->| ->]; try discriminate; unfold is_digit; cbn; lia.
  - destruct H as [->| ->]; cbn; repeat split; discriminate.
Qed.
Lemma cut_at : forall a s s' r r', lacks a s -> lacks a s' -> (s ++ String a r)%string = (s' ++ String a r')%string -> s = s' /\ r = r'.
Proof.
  induction s as [|b s IH]; intros [|b' s'] r r' L L' E; cbn in E.
  - injection E as E. auto.
  - injection E as E _. destruct L' as [L' _]. congruence.
  - injection E as E _. destruct L as [L _]. congruence.
  - injection E as -> E. destruct L as [_ L], L' as [_ L']. destruct (IH _ _ _ L L' E) as [-> ->]. auto.
Qed.
Lemma app_assoc_s : forall a b c : string, ((a ++ b) ++ c)%string = (a ++ (b ++ c))%string.
Proof. induction a as [|x a IH]; intros b c; [reflexivity|]. cbn. now rewrite IH. Qed.
(** what is printed for a pointer *)
Definition content (h : cells) (p : ptr) : option Z := match p with Some c => Some (h c) | None => None end.
Lemma big_string_inj : forall h h' p p', big_string h p = big_string h' p' -> content h p = content h' p'.
Proof.
  assert (N : forall x, dec x <> "<nil>"%string).
  { intros x E. destruct (dec_chars x "<"%char) as [K|[K|K]]; [rewrite E; now left|unfold is_digit in K; cbn in K; lia|discriminate..]. }
  intros h h' [c|] [c'|] E; cbn in E |- *; [f_equal; now apply dec_inj|exfalso; eapply N; exact E|exfalso; eapply N; symmetry; exact E|reflexivity].
Qed.
(** Two groups print alike exactly if they hold the same numbers at the same places; two test elements are the same exactly for the same number. *)
Theorem C109_printed : (forall f f' h h', Int4_String f h = Int4_String f' h' <-> map (content h) (entries4 f) = map (content h') (entries4 f')) /\
  (forall i j, GetPseudoRandomElement i = GetPseudoRandomElement j <-> i = j) /\
  (forall i, set_string10 (GetPseudoRandomElement i) = Some i).
Proof.
  split; [|split; [intros i j; split; [apply dec_inj|congruence]|apply set_string10_dec]].
  intros [[[a b] c] d] [[[a' b'] c'] d'] h h'. cbn [entries4 map]. split.
  - unfold Int4_String. rewrite !app_assoc_s. cbn [append]. intros E. injection E as E.
    apply cut_at in E; [|apply big_string_lacks; now left..]. destruct E as [Ea E]. injection E as E.
    apply cut_at in E; [|apply big_string_lacks; now left..]. destruct E as [Eb E]. injection E as E.
    apply cut_at in E; [|apply big_string_lacks; now left..]. destruct E as [Ec E]. injection E as E.
    apply cut_at in E; [|apply big_string_lacks; now right..]. destruct E as [Ed _].
    f_equal; [now apply big_string_inj|]. f_equal; [now apply big_string_inj|]. f_equal; [now apply big_string_inj|]. f_equal. now apply big_string_inj.
  - intros E. injection E as Ea Eb Ec Ed.
    assert (B : forall p p', content h p = content h' p' -> big_string h p = big_string h' p').
    { intros [x|] [y|] X; cbn in X |- *; try discriminate; [injection X as ->|]; reflexivity. }
    unfold Int4_String. now rewrite (B a a'), (B b b'), (B c c'), (B d d').
Qed.
Example C109_case : Int4_String (Some 1%nat, Some 0%nat, None, Some 2%nat) (mem [-12; 5; 0]) = "{5, -12, <nil>, 0}"%string /\
  GetPseudoRandomElement (-7) = "-7"%string.
Proof. split; reflexivity. Qed.

(** ** C110 *)
(** *** Specification: the hash for parameters P, A, B *)
Definition hash_image (P A B x : Z) : Z := (x * A + B) mod P.
Definition hash_with (P A B x : Z) : Z := let r := hash_image P A B x in if Z.odd r then r else r + 1.
Lemma hash_with_program : forall x, UniversalHashToInt x = hash_with uh_P uh_A uh_B x.
Proof.
  intros x. assert (P : 0 < uh_P) by (vm_compute; reflexivity). unfold UniversalHashToInt, hash_with, hash_image, emod. cbv zeta.
  rewrite (Z.abs_eq uh_P) by lia. rewrite Z.add_mod_idemp_l by lia. rewrite Z.bit0_odd. reflexivity.
Qed.
(** The search returns the first draw that passes the test. *)
Theorem C110_prime : forall is_prime draws, match getPrime256 is_prime draws with
  | Ret (p, rest) => exists before, draws = before ++ p :: rest /\ is_prime p = true /\ (forall q, In q before -> is_prime q = false)
  | OutOfFuel => forall q, In q draws -> is_prime q = false
  | Panic => False
  end.
Proof.
  intros is_prime. induction draws as [|d draws IH]; [intros q []|]. cbn [getPrime256]. destruct (is_prime d) eqn:E.
  - exists []. split; [reflexivity|]. split; [exact E|]. intros q [].
  - destruct (getPrime256 is_prime draws) as [[p rest]| |]; [|exact IH|].
    + destruct IH as (before & -> & Hp & Hb). exists (d :: before). split; [reflexivity|]. split; [exact Hp|]. intros q [<-|Hq]; auto.
    + intros q [<-|Hq]; auto.
Qed.
(** The printed parameters: P is a prime among the draws, A and B are below P; for A <> 0 no two of the inputs below P have the same image and at most two
    the same hash; for A = 0 all have; and A is 0 as often as it is any other number. *)
Theorem C110_parameters_partial : forall is_prime draws, (forall p, In p draws -> is_prime p = true -> prime p) ->
  (forall src P A B, RandomSetupForUniversalHash is_prime draws src = Ret (P, A, B) ->
     In P draws /\ prime P /\ 0 <= A < P /\ 0 <= B < P /\
     (A <> 0 <-> forall x y, 0 <= x < P -> 0 <= y < P -> hash_image P A B x = hash_image P A B y -> x = y) /\
     (A <> 0 -> forall x y z, 0 <= x < P -> 0 <= y < P -> 0 <= z < P -> x <> y -> y <> z -> x <> z ->
        hash_with P A B x = hash_with P A B y -> hash_with P A B y <> hash_with P A B z) /\
     (A = 0 -> forall x y, hash_with P A B x = hash_with P A B y)) /\
  (forall P rest a b L, getPrime256 is_prime draws = Ret (P, rest) -> 0 <= a < P -> 0 <= b < P ->
     tally (fun s => match RandomSetupForUniversalHash is_prime draws s with Ret (_, x, y) => (x =? 0) && (y =? b) | _ => false end) L =
     tally (fun s => match RandomSetupForUniversalHash is_prime draws s with Ret (_, x, y) => (x =? a) && (y =? b) | _ => false end) L).
Proof.
  intros is_prime draws HP. pose proof (C110_prime is_prime draws) as S. split.
  - intros src P A B H. unfold RandomSetupForUniversalHash in H. destruct (getPrime256 is_prime draws) as [[p rest]| |]; cbn [bind] in H; try discriminate.
    destruct S as (before & E & Hp & _). assert (Pp : prime p) by (apply HP; [rewrite E; apply in_or_app; right; now left|exact Hp]).
    assert (P2 : 1 < p) by apply Pp.
    destruct (C78_universal_hash p ltac:(lia)) as [U _]. destruct (U src) as [U'|(a & b & r & U' & Ha & Hb)]; rewrite U' in H; cbn [bind] in H; [discriminate|].
    injection H as <- <- <-. split; [rewrite E; apply in_or_app; right; now left|]. split; [exact Pp|]. split; [exact Ha|]. split; [exact Hb|].
    assert (Inj : a <> 0 -> forall x y, 0 <= x < p -> 0 <= y < p -> hash_image p a b x = hash_image p a b y -> x = y).
    { intros A0 x y Hx Hy I. unfold hash_image in I.
      assert (D : (p | a * (x - y))).
      { replace (a * (x - y)) with ((x * a + b) - (y * a + b)) by ring. apply Z.mod_divide; [lia|]. now rewrite Zminus_mod, I, Z.sub_diag, Z.mod_0_l by lia. }
      apply prime_mult in D; [|exact Pp]. destruct D as [D|D]; [apply Z.divide_pos_le in D; lia|].
      destruct (Z.eq_dec x y) as [|N]; [assumption|]. destruct (Z.lt_trichotomy (x - y) 0) as [L|[L|L]]; [|lia|].
      - apply Z.divide_opp_r in D. apply Z.divide_pos_le in D; lia.
      - apply Z.divide_pos_le in D; lia. }
    split; [|split].
    + split; [exact Inj|]. intros I ->. specialize (I 0 1 ltac:(lia) ltac:(lia)). unfold hash_image in I. rewrite !Z.mul_0_r in I. specialize (I eq_refl). lia.
    + intros A0 x y z Hx Hy Hz N1 N2 N3 E1 E2.
      assert (Q : forall u v, hash_with p a b u = hash_with p a b v -> Z.abs (hash_image p a b u - hash_image p a b v) <= 1 /\
                  (Z.odd (hash_image p a b u) = Z.odd (hash_image p a b v) -> hash_image p a b u = hash_image p a b v)).
      { intros u v. unfold hash_with. cbv zeta. destruct (Z.odd (hash_image p a b u)), (Z.odd (hash_image p a b v)); split; intros; try discriminate; lia. }
      destruct (Q _ _ E1) as [_ O1], (Q _ _ E2) as [_ O2], (Q x z ltac:(congruence)) as [_ O3].
      destruct (Z.odd (hash_image p a b x)), (Z.odd (hash_image p a b y)), (Z.odd (hash_image p a b z));
        try (apply N1, Inj, O1; [assumption..|reflexivity]); try (apply N2, Inj, O2; [assumption..|reflexivity]); apply N3, Inj, O3; assumption || reflexivity.
    + intros -> x y. unfold hash_with, hash_image. now rewrite !Z.mul_0_r.
  - intros P rest a b L E Ha Hb. destruct (C78_universal_hash P ltac:(lia)) as [_ T].
    assert (X : forall c, tally (fun s => match RandomSetupForUniversalHash is_prime draws s with Ret (_, x, y) => (x =? c) && (y =? b) | _ => false end) L =
      tally (fun s => match RandomSetupForUniversalHash_AB P s with Ret (x, y, _) => (x =? c) && (y =? b) | _ => false end) L).
    { intros c. apply tally_ext. intros s _. unfold RandomSetupForUniversalHash. rewrite E. cbn [bind]. destruct (RandomSetupForUniversalHash_AB P s) as [[[x y] r]| |]; reflexivity. }
    rewrite !X. apply T; lia.
Qed.
(** Full statement: the setup prints parameters for which different inputs below P have different images. Refuted: A may be 0. *)
Theorem C110_parameters_refuted : exists is_prime draws src P A B x y, (forall p, In p draws -> is_prime p = true -> prime p) /\
  RandomSetupForUniversalHash is_prime draws src = Ret (P, A, B) /\ 0 <= x < P /\ 0 <= y < P /\ x <> y /\ hash_with P A B x = hash_with P A B y.
Proof.
  exists (fun z => z =? 7), [12; 7; 5], (String "@" (String "@" EmptyString)), 7, 0, 0, 2, 6. split.
  - intros p _ H. apply Z.eqb_eq in H. subst p. apply prime_alt. split; [lia|]. intros n Hn D.
    assert (N : n = 2 \/ n = 3 \/ n = 4 \/ n = 5 \/ n = 6) by lia. destruct D as [k D]. lia.
  - repeat split; try lia; vm_compute; reflexivity || discriminate.
Qed.
Example C110_case : RandomSetupForUniversalHash (fun z => z =? 7) [12; 7; 5] (String "C" (String "E" EmptyString)) = Ret (7, 3, 5) /\
  map (hash_image 7 3 5) [0; 1; 2; 3; 4; 5; 6] = [5; 1; 4; 0; 3; 6; 2] /\ hash_with 7 3 5 0 = hash_with 7 3 5 2.
Proof. split; [|split]; vm_compute; reflexivity. Qed.

Print Assumptions C107_new.
Print Assumptions C107_mul_partial.
Print Assumptions C107_mul_own.
Print Assumptions C107_mul_panics.
Print Assumptions C107_mul_refuted.
Print Assumptions C108_div.
Print Assumptions C108_div_panics.
Print Assumptions C108_undo_partial.
Print Assumptions C108_undo_refuted.
Print Assumptions C109_printed.
Print Assumptions C110_prime.
Print Assumptions C110_parameters_partial.
Print Assumptions C110_parameters_refuted.
