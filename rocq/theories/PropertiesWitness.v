(** A further theorem for property C57: the whole witness, not only its public part. *)
From Coq Require Import ZArith Bool Lia String List.
From Verif Require Import GoBig HashModel CircuitModel CircuitProofs PropertiesCircuit.
Import ListNotations.
Open Scope Z_scope.

(** two lists of numbers with the same residues modulo the field modulus *)
Definition same_elements (l1 l2 : list Z) : Prop := Forall2 (fun x y => x mod fr_modulus = y mod fr_modulus) l1 l2.
(** the secret fields of an update set, one behind the other *)
Definition secrets (u : UpdateSet32) : list Z :=
  [u_Rand1 u; u_Rand2 u; u_OSum u; u_USum u] ++ u_ID u ++ u_OB u ++ u_OH u ++ u_OE u ++ u_UB u.

Lemma same_map : forall l1 l2, same_elements l1 l2 <-> map (fun z => z mod fr_modulus) l1 = map (fun z => z mod fr_modulus) l2.
Proof.
  unfold same_elements. induction l1 as [|x l1 IH]; intros [|y l2]; cbn [map]; split; intros H; try constructor; inversion H; subst; auto.
  - f_equal; [assumption|]. now apply IH.
  - now apply IH.
Qed.
Lemma same_length : forall l1 l2, same_elements l1 l2 -> length l1 = length l2.
Proof. intros l1 l2 H. induction H; cbn [length]; congruence. Qed.
Lemma same_app : forall a b a' b', length a = length a' -> same_elements (a ++ b) (a' ++ b') -> same_elements a a' /\ same_elements b b'.
Proof.
  unfold same_elements. induction a as [|x a IH]; intros b [|y a'] b' L H; cbn in L; try discriminate.
  - split; [constructor|exact H].
  - inversion H; subst. destruct (IH b a' b') as [H1 H2]; [lia|assumption|]. split; [constructor; assumption|assumption].
Qed.

(** the prover's witness is the seven public fields followed by all secret ones, and two update sets have the same witness
    exactly when they agree in all sixteen fields, as field elements *)
Theorem C57_whole_witness : forall u c, AssignCircuit u = Ret c ->
  same_elements (fst (NewWitness c)) [u_L1 u; u_L2 u; u_R1 u; u_R2 u; u_Epoch u; u_D1 u; u_D2 u] /\
  same_elements (snd (NewWitness c)) (secrets u) /\
  forall u' c', AssignCircuit u' = Ret c' ->
    (NewWitness c = NewWitness c' <->
     same_elements [u_L1 u; u_L2 u; u_R1 u; u_R2 u; u_Epoch u; u_D1 u; u_D2 u] [u_L1 u'; u_L2 u'; u_R1 u'; u_R2 u'; u_Epoch u'; u_D1 u'; u_D2 u'] /\
     same_elements [u_Rand1 u; u_Rand2 u; u_OSum u; u_USum u] [u_Rand1 u'; u_Rand2 u'; u_OSum u'; u_USum u'] /\
     same_elements (u_ID u) (u_ID u') /\ same_elements (u_OB u) (u_OB u') /\ same_elements (u_OH u) (u_OH u') /\
     same_elements (u_OE u) (u_OE u') /\ same_elements (u_UB u) (u_UB u')).
Proof.
  assert (C : forall u c, AssignCircuit u = Ret c -> well_formed u /\
    NewWitness c = (map (fun z => z mod fr_modulus) [u_L1 u; u_L2 u; u_R1 u; u_R2 u; u_Epoch u; u_D1 u; u_D2 u], map (fun z => z mod fr_modulus) (secrets u))).
  { intros u c H. pose proof (C51_is_valid u) as (V & A & W).
    assert (WF : well_formed u) by (apply V; destruct (IsValid u) eqn:E; [reflexivity|]; exfalso; unfold AssignCircuit in H; rewrite E in H; discriminate).
    split; [exact WF|]. rewrite (W WF) in H. injection H as <-. unfold NewWitness. rewrite public_vector_eq.
    unfold collect, secrets. cbn [circuit_fields filter visible snd fst Bool.eqb flat_map copied app
      ChallengeL1 ChallengeL2 RemainderR1 RemainderR2 CurrentEpochNum DeltaModL1 DeltaModL2 Randomizer1 Randomizer2 OriginalSum UpdatedSum
      UserID OriginalBalances OriginalHashes OriginalUpdEpoch UpdatedBalances]. now rewrite app_nil_r. }
  assert (RF : forall l, same_elements (map (fun z => z mod fr_modulus) l) l).
  { intros l. unfold same_elements. induction l; constructor; [|assumption]. apply Zmod_mod. }
  intros u c H. destruct (C u c H) as [(_ & L1 & L2 & L3 & L4) ->]. cbn [fst snd]. split; [apply RF|]. split; [apply RF|].
  intros u' c' H'. destruct (C u' c' H') as [(_ & L1' & L2' & L3' & L4') ->].
  assert (P : forall (a b a' b' : list Z), (a, b) = (a', b') <-> a = a' /\ b = b')
    by (intros; split; [intros [= -> ->]; auto|intros [-> ->]; reflexivity]).
  rewrite P, <- !same_map. apply and_iff_compat_l. unfold secrets. split.
  - intros S. apply same_app in S; [|reflexivity]. destruct S as [S0 S].
    assert (LL : length (u_ID u) = length (u_ID u')).
    { apply same_length in S. rewrite !app_length in S. lia. }
    apply same_app in S; [|exact LL]. destruct S as [S1 S]. apply same_app in S; [|lia]. destruct S as [S2 S].
    apply same_app in S; [|lia]. destruct S as [S3 S]. apply same_app in S; [|lia]. destruct S as [S4 S5]. auto 8.
  - intros (S0 & S1 & S2 & S3 & S4 & S5). unfold same_elements in *. repeat (apply Forall2_app; [assumption|]). assumption.
Qed.
Example C57_whole_case : exists c, AssignCircuit toy_set = Ret c /\ length (snd (NewWitness c)) = length (secrets toy_set) /\ (14 <= length (secrets toy_set))%nat.
Proof. eexists. split; [vm_compute; reflexivity|]. split; vm_compute; [reflexivity|lia]. Qed.

Print Assumptions C57_whole_witness.
