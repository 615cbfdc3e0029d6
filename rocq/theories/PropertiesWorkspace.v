(** Theorems for property C103: the contract's directory and its test.

    Groth16 is any [ideal] scheme and the compiled circuit means what Define says ([sat_ok]), as in PropertiesKeys. *)
From Coq Require Import ZArith Znumtheory Bool Lia Ascii String List.
From Verif Require Import GoBig GoBigFacts Spec AccModel AccFacts StrFacts HashModel HashProofs FSModel FSProofs CircuitModel CircuitProofs
  PropertiesCircuit KeysModel PropertiesKeys PropertiesChain WorkspaceModel.
Import ListNotations.
Open Scope Z_scope.

(** *** Specification: which setup each file stems from *)
Record stems := Stems { keys_from : option nat; sol_from : nat; json_from : option nat; go_from : nat }.
Definition at_clone (c0 : nat) : stems := Stems None c0 (Some c0) c0.
Definition next_stems (c0 : nat) (s : stems) (c : command) : stems :=
  match c with
  | RunMain r => Stems (Some r) r (json_from s) (go_from s)
  | Solc => Stems (keys_from s) (sol_from s) (Some (sol_from s)) (go_from s)
  | Abigen => Stems (keys_from s) (sol_from s) (json_from s) (match json_from s with Some r => r | None => go_from s end)
  | GoGenerate r => Stems (Some r) r (Some r) r
  | MakeClean => Stems None (sol_from s) None (go_from s)
  | Checkout => Stems (keys_from s) c0 (Some c0) c0
  end.
Definition stems_of (c0 : nat) (l : list command) : stems := fold_left (next_stems c0) l (at_clone c0).
Definition makes_keys (c : command) : bool := match c with RunMain _ | GoGenerate _ => true | _ => false end.
Definition rebuilds (c : command) : bool := match c with Solc | Abigen => true | _ => false end.

Section Main.
Variables pkey vkey proof : Type.
Variable g_setup : ccs -> nat -> pkey * vkey.
Variable g_proof : pkey -> ccs -> assignment -> nat -> proof.
Variable g_verify : proof -> vkey -> list Z -> bool.
Variable sat : ccs -> assignment -> bool.
Variable poseidon : list Z -> Z.
Variable mulmod : Z -> Z -> Z -> Z -> Prop.
Variable sha : string -> string.
Variable is_prime : Z -> bool.
Variable fuel : nat.
Variable c0 : nat.
Notation session := (WorkspaceModel.session pkey vkey g_setup c0).
Notation execute := (WorkspaceModel.execute pkey vkey g_setup c0).
Notation go_test := (WorkspaceModel.go_test pkey vkey proof g_proof g_verify sat poseidon sha is_prime fuel).
Notation vk_of r := (snd (g_setup contract_ccs r)).

Definition content_of (s : stems) : workspace pkey vkey :=
  MkWorkspace pkey vkey (option_map (fun _ => contract_ccs) (keys_from s)) (option_map (fun r => fst (g_setup contract_ccs r)) (keys_from s))
    (option_map (fun r => vk_of r) (keys_from s)) (Some (vk_of (sol_from s))) (option_map (fun r => vk_of r) (json_from s)) (Some (vk_of (go_from s))).
Lemma execute_content : forall s c, execute (content_of s) c = content_of (next_stems c0 s c).
Proof using pkey vkey g_setup c0.
  intros [k so j g] c. unfold content_of. destruct c as [r| | |r| |]; unfold WorkspaceModel.execute, run_main, solc, abigen, or_same, committed_vk; cbn.
  - rewrite (surjective_pairing (g_setup contract_ccs r)). reflexivity.
  - reflexivity.
  - destruct j; reflexivity.
  - rewrite (surjective_pairing (g_setup contract_ccs r)). reflexivity.
  - reflexivity.
  - reflexivity.
Qed.
Lemma session_content : forall l, session l = content_of (stems_of c0 l).
Proof using pkey vkey g_setup c0.
  intros l. unfold WorkspaceModel.session, stems_of. change (clone pkey vkey g_setup c0) with (content_of (at_clone c0)). generalize (at_clone c0).
  induction l as [|c l IH]; intros s; cbn [fold_left]; [reflexivity|]. rewrite execute_content. apply IH.
Qed.

(** After any commands from a clone the test passes exactly if there are key files, they stem from the setup that the
    binding stems from, and the set that GenTestSet makes satisfies the circuit. *)
Theorem C103_contract_test_partial : ideal g_setup g_proof g_verify sat -> sat_ok poseidon mulmod sat ->
  mulmod_sound mulmod -> mulmod_complete mulmod -> (forall l, in_fr (poseidon l)) -> (forall x, is_prime x = true -> prime x) ->
  forall l m rnd, (go_test (session l) m rnd = true <->
    keys_from (stems_of c0 l) = Some (go_from (stems_of c0 l)) /\
    exists u, GenTestSet poseidon sha is_prime fuel 5 TrustedSetup m = Ret u /\ satisfied poseidon mulmod (field_circuit (copied u))).
Proof using pkey vkey proof g_setup g_proof g_verify sat poseidon mulmod sha is_prime fuel c0.
  intros (GC & GS & GB) (SM & _) MS MC HP HI l m rnd. rewrite session_content. destruct (stems_of c0 l) as [k so j g]. cbn [keys_from go_from].
  assert (HI' : forall x, is_prime x = true -> 0 < x) by (intros x Hx; apply HI, prime_ge_2 in Hx; lia).
  unfold WorkspaceModel.go_test, content_of. cbn [w_go w_ccs w_pk w_vk keys_from go_from option_map]. destruct k as [r|]; cbn [option_map]; [|split; [discriminate|intros [E _]; discriminate E]].
  change (Z.to_nat contractSetSize) with 5%nat.
  destruct (GenTestSet poseidon sha is_prime fuel 5 TrustedSetup m) as [u| |] eqn:G; cbn [bind]; [|split; [discriminate|intros (_ & v & E & _); discriminate E]..].
  destruct (C55_honest_partial poseidon mulmod sha is_prime fuel 5 TrustedSetup m MS MC HP HI' ltac:(lia) ltac:(vm_compute; discriminate)) as [_ H].
  destruct (H u G) as (c & A & U & _). clear H.
  assert (W : well_formed u).
  { apply C51_is_valid. destruct (IsValid u) eqn:E; [reflexivity|]. unfold AssignCircuit in A. rewrite E in A. discriminate. }
  rewrite A. cbn [bind]. rewrite (proj2 (proj2 (C51_is_valid u)) W) in A. injection A as <-.
  pose proof (fits_copied u W) as F. unfold users in U. cbn [copied UserID] in U. rewrite U in F. change (MultiSwap, Z.of_nat 5) with contract_ccs in F.
  unfold ProveRoll. rewrite F, orb_true_r. cbn [negb].
  destruct (GenTestSet_public poseidon sha is_prime fuel 5 TrustedSetup m u HI ltac:(lia) ltac:(vm_compute; discriminate) G) as [HC Pr].
  assert (N : p_L1 (PublicPart u) <> 42).
  { intros E. rewrite E in Pr. destruct (prime_divisors 42 Pr 2) as [D|[D|[D|D]]]; [exists 21; reflexivity|discriminate D..]. }
  destruct (C58_contract_order_partial (PublicPart u) HC) as (_ & I & _).
  assert (P : contract_test_input (PublicPart u) = public_of (AMulti (copied u))).
  { rewrite I. apply public_eq_iff; [exact W|]. repeat constructor. }
  rewrite andb_true_iff, negb_true_iff. split.
  - intros [V _]. apply GB in V; [|exact F]. destruct V as (_ & -> & S & _). split; [reflexivity|]. exists u. split; [reflexivity|]. now apply SM in S.
  - intros ([= ->] & v & [= <-] & S). split.
    + rewrite P. apply GC; [exact F|]. now apply SM.
    + destruct (g_verify _ _ (42 :: _)) eqn:V; [|reflexivity]. exfalso. apply GB in V; [|exact F]. destruct V as (_ & _ & _ & V). rewrite <- P in V.
      apply N. unfold contract_test_input in V. injection V as V. symmetry. exact V.
Qed.

(** go generate repairs every directory: after it, and after more runs of solc and abigen, the test passes. *)
Theorem C103_generate : ideal g_setup g_proof g_verify sat -> sat_ok poseidon mulmod sat ->
  mulmod_sound mulmod -> mulmod_complete mulmod -> (forall l, in_fr (poseidon l)) -> (forall x, is_prime x = true -> prime x) ->
  forall l r l' m rnd u, forallb rebuilds l' = true ->
  GenTestSet poseidon sha is_prime fuel 5 TrustedSetup m = Ret u -> no_wrap poseidon (copied u) ->
  go_test (session (l ++ GoGenerate r :: l')) m rnd = true /\
  (* main.go alone, then solc and abigen, is the same *)
  go_test (session (l ++ RunMain r :: Solc :: Abigen :: l')) m rnd = true.
Proof using pkey vkey proof g_setup g_proof g_verify sat poseidon mulmod sha is_prime fuel c0.
  intros ID SO MS MC HP HI l r l' m rnd u Hl G NW.
  assert (HI' : forall x, is_prime x = true -> 0 < x) by (intros x Hx; apply HI, prime_ge_2 in Hx; lia).
  assert (S : satisfied poseidon mulmod (field_circuit (copied u))).
  { destruct (C55_honest_partial poseidon mulmod sha is_prime fuel 5 TrustedSetup m MS MC HP HI' ltac:(lia) ltac:(vm_compute; discriminate)) as [_ H].
    destruct (H u G) as (c & A & _ & _ & _ & _ & S). assert (W : well_formed u).
    { apply C51_is_valid. destruct (IsValid u) eqn:E; [reflexivity|]. unfold AssignCircuit in A. rewrite E in A. discriminate. }
    rewrite (proj2 (proj2 (C51_is_valid u)) W) in A. injection A as <-. exact (S NW). }
  assert (Fix : fold_left (next_stems c0) l' (Stems (Some r) r (Some r) r) = Stems (Some r) r (Some r) r).
  { clear - Hl. induction l' as [|c l' IH]; [reflexivity|]. cbn [forallb] in Hl. apply andb_prop in Hl. destruct Hl as [Hc Hl]. cbn [fold_left].
    destruct c; try discriminate Hc; cbn; apply IH, Hl. }
  split; apply (C103_contract_test_partial ID SO MS MC HP HI); unfold stems_of; rewrite fold_left_app; cbn [fold_left next_stems keys_from sol_from json_from go_from];
    rewrite Fix; split; [reflexivity|eauto|reflexivity|eauto].
Qed.

(** A clone fails, whatever is done without making keys; so does a directory after make clean until keys are made again, a
    directory where main.go ran with solc or abigen left out, and one whose generated files were checked out again. *)
Theorem C103_fails : ideal g_setup g_proof g_verify sat -> sat_ok poseidon mulmod sat ->
  mulmod_sound mulmod -> mulmod_complete mulmod -> (forall l, in_fr (poseidon l)) -> (forall x, is_prime x = true -> prime x) ->
  forall l l' m rnd, existsb makes_keys l' = false ->
  go_test (session l') m rnd = false /\
  go_test (session (l ++ MakeClean :: l')) m rnd = false /\
  (forall r r', r' <> r ->
     go_test (session (l ++ [GoGenerate r; RunMain r'])) m rnd = false /\
     go_test (session (l ++ [GoGenerate r; RunMain r'; Solc])) m rnd = false /\
     go_test (session (l ++ [GoGenerate r; RunMain r'; Abigen])) m rnd = false) /\
  (forall r l'', r <> c0 -> forallb rebuilds l'' = true -> go_test (session (l ++ GoGenerate r :: Checkout :: l'')) m rnd = false).
Proof using pkey vkey proof g_setup g_proof g_verify sat poseidon mulmod sha is_prime fuel c0.
  intros ID SO MS MC HP HI l l' m rnd Hl.
  assert (Fail : forall x, keys_from (stems_of c0 x) <> Some (go_from (stems_of c0 x)) -> go_test (session x) m rnd = false).
  { intros x Hx. apply not_true_iff_false. intros E. apply (C103_contract_test_partial ID SO MS MC HP HI) in E. apply Hx, E. }
  assert (Keep : forall s, keys_from s = None -> keys_from (fold_left (next_stems c0) l' s) = None).
  { clear - Hl. induction l' as [|c l' IH]; intros s Hs; [exact Hs|]. cbn [existsb] in Hl. apply orb_false_elim in Hl. destruct Hl as [Hc Hl].
    cbn [fold_left]. apply (IH Hl). destruct c; try discriminate Hc; cbn; auto. }
  split; [|split; [|split]].
  - apply Fail. unfold stems_of. rewrite Keep; [discriminate|reflexivity].
  - apply Fail. unfold stems_of. rewrite fold_left_app. cbn [fold_left]. rewrite Keep; [discriminate|reflexivity].
  - intros r r' N. split; [|split]; apply Fail; unfold stems_of; rewrite fold_left_app; cbn; congruence.
  - intros r l'' N H2. apply Fail. unfold stems_of. rewrite fold_left_app. cbn [fold_left next_stems keys_from sol_from json_from go_from].
    assert (Fix : fold_left (next_stems c0) l'' (Stems (Some r) c0 (Some c0) c0) = Stems (Some r) c0 (Some c0) c0).
    { clear - H2. induction l'' as [|c l'' IH]; [reflexivity|]. cbn [forallb] in H2. apply andb_prop in H2. destruct H2 as [Hc H2]. cbn [fold_left].
      destruct c; try discriminate Hc; cbn; apply IH, H2. }
    rewrite Fix. cbn. congruence.
Qed.
End Main.

(** *** A case: an ideal scheme, the prime 97, the repository's setup *)
Definition only97 (x : Z) : bool := x =? 97.
Lemma prime_97 : prime 97.
Proof.
  apply prime_intro; [lia|]. intros n Hn. apply Zgcd_1_rel_prime.
  assert (E : forallb (fun k => Z.gcd (Z.of_nat k) 97 =? 1) (seq 1 96) = true) by (vm_compute; reflexivity).
  rewrite forallb_forall in E. specialize (E (Z.to_nat n)). rewrite Z2Nat.id in E by lia. apply Z.eqb_eq, E, in_seq. lia.
Qed.
Lemma only97_prime : forall x, only97 x = true -> prime x.
Proof. intros x Hx. apply Z.eqb_eq in Hx. subst x. exact prime_97. Qed.
Example C103_case : exists u, GenTestSet toy_pos (one_byte "a"%char) only97 5 5 TrustedSetup 3 = Ret u /\ no_wrap toy_pos (copied u).
Proof.
  rewrite GenTestSet_spec by (lia || (vm_compute; discriminate) || (intros x Hx; apply Z.eqb_eq in Hx; lia)).
  eexists. split; [vm_compute; reflexivity|]. intros i Hi. cbn in Hi. do 5 (destruct i as [|i]; [split; vm_compute; reflexivity|]). lia.
Qed.
Notation toy_session := (WorkspaceModel.session (ccs * nat) (ccs * nat) toy_setup).
Notation toy_go_test := (WorkspaceModel.go_test (ccs * nat) (ccs * nat) ((ccs * nat) * assignment * nat) toy_proof (toy_verify (toy_sat toy_pos)) (toy_sat toy_pos)
  toy_pos (one_byte "a"%char) only97 5).
Example C103_commands :
  toy_go_test (toy_session 7 []) 3 1%nat = false /\
  toy_go_test (toy_session 7 [RunMain 8]) 3 1%nat = false /\
  toy_go_test (toy_session 7 [GoGenerate 8]) 3 1%nat = true /\
  toy_go_test (toy_session 7 [GoGenerate 8; RunMain 9]) 3 1%nat = false /\
  toy_go_test (toy_session 7 [GoGenerate 8; MakeClean; Abigen]) 3 1%nat = false.
Proof.
  destruct C103_case as (u & G & NW).
  pose proof (C103_fails _ _ _ toy_setup toy_proof (toy_verify (toy_sat toy_pos)) (toy_sat toy_pos) toy_pos exact_mulmod (one_byte "a"%char) only97 5 7
    (toy_ideal (toy_sat toy_pos)) (toy_sat_ok toy_pos) exact_sound exact_complete toy_pos_fr only97_prime) as Fa.
  pose proof (C103_generate _ _ _ toy_setup toy_proof (toy_verify (toy_sat toy_pos)) (toy_sat toy_pos) toy_pos exact_mulmod (one_byte "a"%char) only97 5 7
    (toy_ideal (toy_sat toy_pos)) (toy_sat_ok toy_pos) exact_sound exact_complete toy_pos_fr only97_prime) as Ge.
  split; [exact (proj1 (Fa [] [] 3 1%nat eq_refl))|]. split; [|split; [|split]].
  - apply not_true_iff_false. intros E. apply (C103_contract_test_partial _ _ _ toy_setup toy_proof (toy_verify (toy_sat toy_pos)) (toy_sat toy_pos) toy_pos exact_mulmod
      (one_byte "a"%char) only97 5 7 (toy_ideal (toy_sat toy_pos)) (toy_sat_ok toy_pos) exact_sound exact_complete toy_pos_fr only97_prime) in E.
    destruct E as [E _]. discriminate E.
  - exact (proj1 (Ge [] 8%nat [] 3 1%nat u eq_refl G NW)).
  - exact (proj1 (proj1 (proj2 (proj2 (Fa [] [] 3 1%nat eq_refl))) 8%nat 9%nat ltac:(discriminate))).
  - exact (proj1 (proj2 (Fa [GoGenerate 8] [Abigen] 3 1%nat eq_refl))).
Qed.

(** Full statement: from a clone the contract's test passes after any of the commands, given that the set is made and
    satisfies the circuit. It is false on the clone itself, and after main.go has run without the rest of go generate. *)
Theorem C103_contract_test_refuted : exists l l' r m rnd u,
  GenTestSet toy_pos (one_byte "a"%char) only97 5 5 TrustedSetup m = Ret u /\ no_wrap toy_pos (copied u) /\
  l = [] /\ toy_go_test (toy_session 7 l) m rnd = false /\
  l' = [GoGenerate r] /\ toy_go_test (toy_session 7 l') m rnd = true /\ exists r', toy_go_test (toy_session 7 (l' ++ [RunMain r'])) m rnd = false.
Proof.
  destruct C103_case as (u & G & NW). exists [], [GoGenerate 8], 8%nat, 3, 1%nat, u. destruct C103_commands as (A & _ & B & C & _).
  split; [exact G|]. split; [exact NW|]. split; [reflexivity|]. split; [exact A|]. split; [reflexivity|]. split; [exact B|]. exists 9%nat. exact C.
Qed.

Print Assumptions C103_contract_test_partial.
Print Assumptions C103_generate.
Print Assumptions C103_fails.
Print Assumptions C103_contract_test_refuted.
