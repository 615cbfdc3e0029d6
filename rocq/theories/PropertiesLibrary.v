(** Theorems for property C120: the Pairing library of the binding. *)
From Coq Require Import ZArith Bool Lia String List.
From Verif Require Import SolModel EvmModel EvmCode LibraryModel.
Import ListNotations.
Open Scope Z_scope.

(** ** specification: the library is its template with the address of the account in place of the zeros of the first
    PUSH20 *)
Definition template : list Z := skipn 80 PairingBin.
Definition address_bytes (self : Z) : list Z := map (fun i => self / 256 ^ (19 - Z.of_nat i) mod 256) (seq 0 20).
Definition library_code (self : Z) : list Z := 0x73 :: address_bytes self ++ skipn 21 template.

Lemma lib_run_step : forall code prg cd value gas pre self f s s', lib_step code prg cd value gas pre self s = inl s' ->
  lib_run code prg cd value gas pre self (S f) s = lib_run code prg cd value gas pre self f s'.
Proof. intros code prg cd value gas pre self f s s' H. cbn [lib_run]. rewrite H. reflexivity. Qed.
Lemma lib_run_more : forall code prg cd value gas pre self f g s r, lib_run code prg cd value gas pre self f s = r -> r <> ROutOfFuel -> (f <= g)%nat ->
  lib_run code prg cd value gas pre self g s = r.
Proof.
  intros code prg cd value gas pre self. induction f as [|f IH]; intros g s r H Hr Hg; [cbn in H; congruence|].
  destruct g as [|g]; [lia|]. cbn [lib_run] in *. destruct (lib_step _ _ _ _ _ _ _ s) as [s'|r']; [|exact H]. apply IH; [exact H|exact Hr|lia].
Qed.

Ltac lib_one_step :=
  match goal with |- lib_run ?c ?p ?d ?v ?g ?pr ?sf (S _) ?s = _ =>
    let x := eval lazy -[mstore mwrite mload byte_of PairingBin nth map seq Z.to_nat Nat.add Z.eqb] in (lib_step c p d v g pr sf s) in
    match x with
    | inl ?t => rewrite (lib_run_step c p d v g pr sf _ s t (eq_refl x))
    end
  end.

Definition lib_init_prog : prog := Eval vm_compute in decode PairingBin.
Lemma lib_init_decode : decode PairingBin = lib_init_prog.
Proof. vm_compute. reflexivity. Qed.

Theorem C120_deploy : forall pre gas self cd value fuel, (32 <= fuel)%nat ->
  run_account pre gas self PairingBin cd value fuel = RReturn (library_code self).
Proof.
  intros pre gas self cd value fuel Hf. unfold run_account. rewrite lib_init_decode.
  apply (lib_run_more _ _ _ _ _ _ _ 32); [|discriminate|exact Hf]. unfold start.
  do 7 lib_one_step.
  match goal with |- context [mwrite ?a ?b ?c] => set (M := mwrite a b c) end.
  do 7 lib_one_step.
  match goal with |- context [if ?b then 1 else 0] => assert (E : b = true) by (vm_compute; reflexivity); rewrite E; clear E end.
  change (mwrite (fun _ : Z => 0) 11 (map (fun k : nat => nth (Z.to_nat 80 + k) PairingBin 0) (seq 0 (Z.to_nat 86)))) with M.
  assert (HM : mbytes M 11 86 = template) by (vm_compute; reflexivity). clearbody M.
  match goal with |- lib_run ?c ?p ?d ?v ?g ?pr ?sf (S _) ?s = _ =>
    rewrite (lib_run_step c p d v g pr sf _ s (St 67 [11; 80; 86] M 15) eq_refl) end.
  do 9 lib_one_step.
  match goal with |- lib_run ?c ?p ?d ?v ?g ?pr ?sf (S _) {| pc := _; stk := _; mm := ?m; tick := _ |} = _ =>
    change (RReturn (mbytes m 11 86) = RReturn (library_code self)) end.
  f_equal.
  lazy -[Z.div Z.modulo] in HM. injection HM as E11 E12 E13 E14 E15 E16 E17 E18 E19 E20 E21 E22 E23 E24 E25 E26 E27 E28 E29 E30 E31 HM.
  clear Hf E11 E12 E13 E14 E15 E16 E17 E18 E19 E20 E21 E22 E23 E24 E25 E26 E27 E28 E29 E30 E31.
  lazy -[Z.div Z.modulo]. congruence.
Qed.

(** the bytes are those of the address *)
Theorem C120_address : forall self, 0 <= self < 2 ^ 160 ->
  be (firstn 20 (skipn 1 (library_code self))) = self /\ Forall (fun b => 0 <= b < 256) (library_code self) /\ List.length (library_code self) = 86%nat.
Proof.
  intros self Hs. split; [|split].
  - change (firstn 20 (skipn 1 (library_code self))) with (address_bytes self). unfold address_bytes.
    assert (G : forall n, (n <= 20)%nat -> be (map (fun i => self / 256 ^ (19 - Z.of_nat i) mod 256) (seq 0 n)) = self / 256 ^ (20 - Z.of_nat n) mod 256 ^ Z.of_nat n).
    { induction n as [|n IH]; intros Hn; [cbn; rewrite Z.mod_1_r; reflexivity|].
      rewrite seq_S, map_app. unfold be. rewrite fold_left_app. fold (be (map (fun i => self / 256 ^ (19 - Z.of_nat i) mod 256) (seq 0 n))).
      rewrite IH by lia. cbn [map fold_left Nat.add]. set (q := self / 256 ^ (19 - Z.of_nat n)).
      replace (20 - Z.of_nat n) with (19 - Z.of_nat n + 1) by lia. rewrite Z.pow_add_r, <- Z.div_div by lia. fold q.
      replace (20 - Z.of_nat (S n)) with (19 - Z.of_nat n) by lia. fold q.
      replace (Z.of_nat (S n)) with (1 + Z.of_nat n) by lia. rewrite Z.pow_add_r, Z.rem_mul_r by lia. change (256 ^ 1) with 256. lia. }
    rewrite G by lia. change (20 - Z.of_nat 20) with 0. rewrite Z.div_1_r. change (256 ^ Z.of_nat 20) with (2 ^ 160). now apply Z.mod_small.
  - unfold library_code. constructor; [lia|]. apply Forall_app. split.
    + unfold address_bytes. apply Forall_forall. intros b Hb. apply in_map_iff in Hb. destruct Hb as (i & <- & _). now apply Z.mod_pos_bound.
    + vm_compute. repeat constructor; discriminate.
  - reflexivity.
Qed.

(** Every call of the library, whoever runs the code, is refused without data. *)
Theorem C120_refuses : forall pre gas self account cd value fuel, (32 <= fuel)%nat ->
  run_account pre gas account (library_code self) cd value fuel = RRevert [].
Proof.
  intros pre gas self account cd value fuel Hf. unfold run_account.
  apply (lib_run_more _ _ _ _ _ _ _ 32); [|discriminate|exact Hf]. unfold start.
  assert (P : decode (library_code self) = pput (decode (library_code 0)) 1 (PUSH 20 (be (firstn 20 (address_bytes self ++ skipn 21 template ++ repeat 0 32)))))
    by (lazy -[be Z.div Z.modulo]; reflexivity).
  rewrite P. clear P. set (x := be _). clearbody x. set (c := library_code self). clearbody c.
  match goal with |- lib_run _ ?p _ _ _ _ _ _ _ = _ => let q := eval vm_compute in p in change p with q end.
  do 8 lib_one_step. reflexivity.
Qed.

(** The account 0x1234 deploys the library: the address is in its place, and calls fail. *)
Example C120_case :
  run_account (fun _ _ => CUnknown) (fun _ => 0) 0x1234 PairingBin [] 7 32 = RReturn (library_code 0x1234) /\
  firstn 23 (library_code 0x1234) = 0x73 :: repeat 0 18 ++ [0x12; 0x34; 0x30; 0x14] /\
  run_account (fun _ _ => CUnknown) (fun _ => 0) 0x1234 (library_code 0x1234) [1; 2; 3; 4] 0 32 = RRevert [].
Proof. vm_compute. repeat split. Qed.

Print Assumptions C120_deploy.
Print Assumptions C120_address.
Print Assumptions C120_refuses.
