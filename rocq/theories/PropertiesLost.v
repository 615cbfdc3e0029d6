(** Theorems for property C95: key files that get lost (main.go:98: "keep all of them, or delete all of them"). *)
From Coq Require Import ZArith Bool Lia Ascii String List.
From Verif Require Import GoBig GoBigFacts Spec AccModel AccProofs StrFacts HashModel FSModel CircuitModel CircuitProofs
  PropertiesCircuit KeysModel PropertiesKeys PropertiesExperiments.
Import ListNotations.
Open Scope Z_scope.

(** ** Specification *)
(** what happens to the directory: the program runs, or a file is lost *)
Inductive item := Did (e : event) | Lost (f : family) (n : Z) (sfx : string).
Definition delete {pkey vkey : Type} (fs : files pkey vkey) (name : string) : files pkey vkey := fun n => if String.eqb n name then None else fs n.
Definition step {pkey vkey : Type} (g_setup : ccs -> nat -> pkey * vkey) (fs : files pkey vkey) (i : item) : files pkey vkey :=
  match i with Did e => do_event pkey vkey g_setup fs e | Lost f n sfx => delete fs (file_name (prefix_of f) n sfx) end.
Definition directory {pkey vkey : Type} (g_setup : ccs -> nat -> pkey * vkey) (l : list item) : files pkey vkey := fold_left (step g_setup) l (fun _ => None).
Definition item_ok (i : item) : Prop := match i with Did e => 0 <= size_of e | Lost _ n sfx => 0 <= n /\ In sfx saved end.
(** of which setup each of the three files of a size is, if it is there *)
Definition kept_step (f : family) (n : Z) (cur : string -> option nat) (i : item) : string -> option nat :=
  match i with
  | Lost g m t => fun sfx => if family_eqb f g && (n =? m) && String.eqb sfx t then None else cur sfx
  | Did e => match next_setup f n (cur ".ccs.save"%string) e, cur ".ccs.save"%string with
             | Some r, None => fun _ => Some r
             | _, _ => match e with
                       | ESetup g m r => if family_eqb f g && (n =? m) && compiles f n then fun _ => Some r else cur
                       | EContract2 m _ _ r _ _ => if family_eqb f MultiSwap && (n =? m) && compiles f n then fun _ => Some r else cur
                       | _ => cur
                       end
             end
  end.
Definition kept (l : list item) (f : family) (n : Z) : string -> option nat := fold_left (kept_step f n) l (fun _ => None).
(** a circuit without one of its keys *)
Definition stuck (l : list item) (f : family) (n : Z) : Prop :=
  kept l f n ".ccs.save" <> None /\ (kept l f n ".pk.save" = None \/ kept l f n ".vk.save" = None).
(** nothing that writes the keys anew regardless of the circuit file *)
Definition no_repair (f : family) (n : Z) (i : item) : Prop :=
  match i with
  | Did (ESetup g m _) => ~ (f = g /\ n = m)
  | Did (EContract2 m _ _ _ _ _) => ~ (f = MultiSwap /\ n = m)
  | Did _ => True
  | Lost g m sfx => ~ (f = g /\ n = m /\ sfx = ".ccs.save"%string)
  end.
(** all files of a size at a time *)
Definition wipe (f : family) (n : Z) : list item := map (Lost f n) saved.
Inductive careful : list item -> Prop :=
| careful_nil : careful []
| careful_did : forall l e, careful l -> careful (l ++ [Did e])
| careful_wipe : forall l f n, careful l -> careful (l ++ wipe f n).

(** ** The directory is what the specification says *)
Section Files.
Variables pkey vkey : Type.
Variable g_setup : ccs -> nat -> pkey * vkey.
Notation directory := (directory g_setup).

Lemma kept_snoc : forall l i f n, kept (l ++ [i]) f n = kept_step f n (kept l f n) i.
Proof. intros. unfold kept. now rewrite fold_left_app. Qed.
Lemma directory_snoc : forall l i, directory (l ++ [i]) = step g_setup (directory l) i.
Proof. intros. unfold PropertiesLost.directory. now rewrite fold_left_app. Qed.
Lemma setup_reads : forall fs g m r f n sfx, 0 <= n -> 0 <= m -> In sfx saved ->
  (match SetupZkMultiswap pkey vkey g_setup fs g m r with Ret fs' => fs' | _ => fs end) (file_name (prefix_of f) n sfx) =
  if family_eqb f g && (n =? m) && compiles f n then key_file pkey vkey g_setup f n r sfx else fs (file_name (prefix_of f) n sfx).
Proof.
  intros fs g m r f n sfx Hn Hm Hs. pose proof (dump_read pkey vkey g_setup fs g m r f n sfx Hn Hm Hs) as D.
  unfold SetupZkMultiswap, compiles. destruct (family_eqb_spec f g) as [->|NE]; [destruct (Z.eqb_spec n m) as [->|NE]|]; cbn [andb] in *.
  - destruct g; [|exact D]. destruct (Z.leb_spec m 0), (Z.ltb_spec 0 m); try lia; [reflexivity|exact D].
  - destruct g; [destruct (Z.leb_spec m 0); [reflexivity|exact D]|exact D].
  - destruct g; [destruct (Z.leb_spec m 0); [reflexivity|exact D]|exact D].
Qed.
Theorem directory_files : forall l, Forall item_ok l -> forall f n sfx, 0 <= n -> In sfx saved ->
  directory l (file_name (prefix_of f) n sfx) = match kept l f n sfx with Some s => key_file pkey vkey g_setup f n s sfx | None => None end.
Proof.
  intros l. induction l as [|i l IH] using rev_ind; intros HL f n sfx Hn Hs; [reflexivity|].
  apply Forall_app in HL. destruct HL as [HL Hi]. inversion Hi as [|? ? H0 _]; subst. specialize (IH HL).
  rewrite kept_snoc, directory_snoc.
  assert (EX : forall g m, 0 <= m -> isCircuitExist pkey vkey (directory l) g m = match kept l g m ".ccs.save" with Some _ => true | None => false end).
  { intros g m Hm. unfold isCircuitExist. rewrite IH by (cbn; auto). destruct (kept l g m _); reflexivity. }
  assert (IM : forall g m r, 0 <= m -> after_setup_if_missing pkey vkey g_setup (directory l) g m r (file_name (prefix_of f) n sfx) =
    match (if family_eqb f g && (n =? m) && compiles f n && match kept l f n ".ccs.save" with None => true | Some _ => false end
           then Some r else kept l f n sfx) with Some s => key_file pkey vkey g_setup f n s sfx | None => None end).
  { intros g m r Hm. unfold after_setup_if_missing. rewrite EX by assumption. pose proof (setup_reads (directory l) g m r f n sfx Hn Hm Hs) as S.
    destruct (family_eqb_spec f g) as [->|NE]; [destruct (Z.eqb_spec n m) as [->|NE]|]; cbn [andb] in *.
    - destruct (kept l g m ".ccs.save"); [rewrite andb_false_r; now apply IH|]. rewrite andb_true_r, S. destruct (compiles g m); [reflexivity|now apply IH].
    - destruct (kept l g m ".ccs.save"); [now apply IH|]. rewrite S. now apply IH.
    - destruct (kept l g m ".ccs.save"); [now apply IH|]. rewrite S. now apply IH. }
  assert (OTHER : forall (fs : files pkey vkey) t c, match t with String a _ => a <> "z"%char /\ a <> "m"%char | EmptyString => True end ->
    write pkey vkey fs t c (file_name (prefix_of f) n sfx) = fs (file_name (prefix_of f) n sfx)).
  { intros fs t c Ht. apply write_neq. now apply other_name. }
  destruct i as [e|g m t]; cbn [step kept_step].
  - destruct e as [g m r|g m st mid rs rp|m rs|m st mid r1 r2 rp]; cbn [item_ok size_of] in H0; cbn [do_event next_setup].
    + rewrite setup_reads by assumption. rewrite orb_true_l, andb_true_r.
      destruct (family_eqb f g && (n =? m) && compiles f n); destruct (kept l f n ".ccs.save"); try reflexivity; now apply IH.
    + rewrite IM by assumption. cbn [orb]. destruct (kept l f n ".ccs.save"); [rewrite andb_false_r; reflexivity|].
      rewrite andb_true_r. destruct (_ && _); reflexivity.
    + assert (E : (match OutputSmartContract pkey vkey g_setup (directory l) m rs with Ret fs' => fs' | _ => after_setup_if_missing pkey vkey g_setup (directory l) MultiSwap m rs end)
        (file_name (prefix_of f) n sfx) = after_setup_if_missing pkey vkey g_setup (directory l) MultiSwap m rs (file_name (prefix_of f) n sfx)).
      { unfold OutputSmartContract, after_setup_if_missing. destruct (isCircuitExist _ _ _ _ _); cbn [negb bind].
        - destruct (read_vk _ _ _ _); cbn; [apply OTHER; cbn; split; discriminate|reflexivity].
        - destruct (SetupZkMultiswap _ _ _ _ _ _ _) as [fs| |]; cbn [bind]; try reflexivity.
          destruct (read_vk _ _ _ _); cbn; [apply OTHER; cbn; split; discriminate|reflexivity]. }
      rewrite E, IM by assumption. cbn [orb]. destruct (kept l f n ".ccs.save"); [rewrite andb_false_r; reflexivity|].
      rewrite andb_true_r. destruct (_ && _); reflexivity.
    + assert (E : (match SetupZkMultiswap pkey vkey g_setup (directory l) MultiSwap m r1 with
        | Ret fs => let (pk, vk) := g_setup (MultiSwap, m) r2 in
            write pkey vkey (write pkey vkey (write pkey vkey fs "Notus.g16.vk" (FVK pkey vkey vk)) "Notus.g16.pk" (FPK pkey vkey pk)) "Notuscontract_g16.sol" (FSol pkey vkey vk)
        | _ => directory l end) (file_name (prefix_of f) n sfx) =
        (match SetupZkMultiswap pkey vkey g_setup (directory l) MultiSwap m r1 with Ret fs' => fs' | _ => directory l end) (file_name (prefix_of f) n sfx)).
      { destruct (SetupZkMultiswap _ _ _ _ _ _ _) as [fs| |]; try reflexivity. destruct (g_setup _ r2) as [pk vk].
        rewrite !OTHER by (cbn; split; discriminate). reflexivity. }
      rewrite E, setup_reads by assumption. rewrite orb_true_l, andb_true_r.
      destruct (family_eqb f MultiSwap && (n =? m) && compiles f n); destruct (kept l f n ".ccs.save"); try reflexivity; now apply IH.
  - cbn [item_ok] in H0. destruct H0 as [Hm Ht]. unfold delete. destruct (String.eqb_spec (file_name (prefix_of f) n sfx) (file_name (prefix_of g) m t)) as [E|NE].
    + apply name_inj in E; auto using saved_dot. destruct E as (-> & -> & ->). rewrite Z.eqb_refl, String.eqb_refl. now destruct g.
    + destruct (family_eqb_spec f g); [destruct (Z.eqb_spec n m); [destruct (String.eqb_spec sfx t); [congruence|]|]|]; cbn [andb]; now apply IH.
Qed.
End Files.
(** keys of one size are never of two setups *)
Lemma one_generation : forall l f n, exists r, forall sfx s, kept l f n sfx = Some s -> s = r.
Proof.
  intros l f n. induction l as [|i l IH] using rev_ind; [exists 0%nat; intros sfx s H; discriminate H|].
  rewrite kept_snoc. destruct IH as [r IH]. destruct i as [e|g m t]; cbn [kept_step].
  - destruct (next_setup f n (kept l f n ".ccs.save") e) as [q|]; destruct (kept l f n ".ccs.save");
      try (exists q; intros sfx s [= ->]; reflexivity);
      destruct e; try (exists r; exact IH); destruct (_ && _); try (exists r; exact IH); eexists; intros sfx s [= <-]; reflexivity.
  - exists r. intros sfx s H. destruct (_ && _); [discriminate|]. eapply IH, H.
Qed.
Lemma careful_kept : forall l, careful l -> forall f n, exists c, forall sfx, In sfx saved -> kept l f n sfx = c.
Proof.
  intros l H f n. induction H as [|l e _ [c IH]|l g m _ [c IH]].
  - exists None. reflexivity.
  - rewrite kept_snoc. cbn [kept_step].
    destruct (next_setup _ _ _ _) as [q|]; destruct (kept l f n ".ccs.save"); try (eexists; reflexivity);
      destruct e; try (exists c; exact IH); destruct (_ && _); try (exists c; exact IH); eexists; reflexivity.
  - unfold wipe, saved. cbn [map]. change [Lost g m ".ccs.save"; Lost g m ".pk.save"; Lost g m ".vk.save"]
      with ([Lost g m ".ccs.save"] ++ [Lost g m ".pk.save"] ++ [Lost g m ".vk.save"]).
    rewrite !app_assoc, !kept_snoc. cbn [kept_step]. destruct (family_eqb f g && (n =? m)); cbn [andb].
    + exists None. intros sfx [<-|[<-|[<-|[]]]]; reflexivity.
    + exists c. exact IH.
Qed.

(** ** C95 *)
Lemma dec_stuck : forall l f n, stuck l f n \/ (~ stuck l f n /\
  (kept l f n ".ccs.save" = None \/ exists s, forall sfx, In sfx saved -> kept l f n sfx = Some s)).
Proof.
  intros l f n. unfold stuck. destruct (one_generation l f n) as [r R].
  destruct (kept l f n ".ccs.save") as [a|] eqn:A; [|right; split; [tauto|now left]].
  destruct (kept l f n ".pk.save") as [b|] eqn:B; [|left; split; [discriminate|auto]].
  destruct (kept l f n ".vk.save") as [c|] eqn:C; [|left; split; [discriminate|auto]].
  right. split; [intros [_ [H|H]]; discriminate|]. right. exists r. intros sfx [<-|[<-|[<-|[]]]].
  - rewrite A. f_equal. eapply R, A.
  - rewrite B. f_equal. eapply R, B.
  - rewrite C. f_equal. eapply R, C.
Qed.
(** a test leaves the keys of its size whole, unless they were stuck *)
Lemma kept_test : forall l f n st m rs rp, compiles f n = true -> ~ stuck l f n ->
  exists s, forall sfx, In sfx saved -> kept (l ++ [Did (ETest f n st m rs rp)]) f n sfx = Some s.
Proof.
  intros l f n st m rs rp C NS. rewrite kept_snoc. cbn [kept_step next_setup]. rewrite Z.eqb_refl, C. replace (family_eqb f f) with true by now destruct f. cbn [andb orb].
  destruct (dec_stuck l f n) as [S|[_ [S|[s S]]]]; [contradiction| |].
  - rewrite S. exists rs. reflexivity.
  - rewrite (S ".ccs.save"%string) by (cbn; auto). exists s. exact S.
Qed.

Section Main.
Variables pkey vkey proof : Type.
Variable g_setup : ccs -> nat -> pkey * vkey.
Variable g_proof : pkey -> ccs -> assignment -> nat -> proof.
Variable g_verify : proof -> vkey -> list Z -> bool.
Variable sat : ccs -> assignment -> bool.
Variable poseidon : list Z -> Z.
Variable mulmod : Z -> Z -> Z -> Z -> Prop.
Notation directory := (directory g_setup).

Theorem C95_lost_partial : ideal g_setup g_proof g_verify sat -> sat_ok poseidon mulmod sat ->
  mulmod_sound mulmod -> mulmod_complete mulmod -> (forall l, in_fr (poseidon l)) ->
  forall l rs rp, Forall item_ok l ->
  (forall sha is_prime fuel n setup m u, positive_test is_prime -> 2 <= n <= 2 ^ 31 ->
     GenTestSet poseidon sha is_prime fuel (Z.to_nat n) setup m = Ret u ->
     let run := TestMultiSwap pkey vkey proof g_setup g_proof g_verify sat poseidon sha is_prime fuel (directory l) n setup m rs rp in
     (stuck l MultiSwap n -> run = Panic) /\
     (~ stuck l MultiSwap n -> exists b, run = Ret (directory (l ++ [Did (ETest MultiSwap n setup m rs rp)]), b) /\
        (b = true <-> satisfied poseidon mulmod (field_circuit (copied u))) /\ (no_wrap poseidon (copied u) -> b = true))) /\
  (forall n setup m, 0 <= n <= 2 ^ 32 ->
     let run := TestMerkleMultiSwap pkey vkey proof g_setup g_proof g_verify sat poseidon (directory l) n rs rp in
     (stuck l MerkleSwap n -> run = Panic) /\
     (~ stuck l MerkleSwap n -> run = Ret (directory (l ++ [Did (ETest MerkleSwap n setup m rs rp)]), true))).
Proof.
  intros (GC & GS & GB) SO MS MC HF l rs rp HL.
  assert (Q : forall f n st m, compiles f n = true -> 0 <= n ->
    (if negb (isCircuitExist pkey vkey (directory l) f n) then SetupZkMultiswap pkey vkey g_setup (directory l) f n rs else Ret (directory l)) =
    Ret (directory (l ++ [Did (ETest f n st m rs rp)]))).
  { intros f n st m C Hn. rewrite directory_snoc. cbn [step do_event]. unfold after_setup_if_missing.
    destruct (isCircuitExist _ _ _ _ _); cbn [negb]; [reflexivity|]. unfold SetupZkMultiswap. destruct f; [|reflexivity].
    cbn [compiles] in C. apply Z.ltb_lt in C. destruct (Z.leb_spec n 0); [lia|reflexivity]. }
  assert (ST : forall f n st m, stuck l f n -> kept (l ++ [Did (ETest f n st m rs rp)]) f n = kept l f n).
  { intros f n st m [S1 _]. rewrite kept_snoc. cbn [kept_step]. destruct (kept l f n ".ccs.save"); [|contradiction].
    cbn [next_setup orb]. rewrite andb_false_r. reflexivity. }
  assert (OK : forall f n st m, 0 <= n -> Forall item_ok (l ++ [Did (ETest f n st m rs rp)])).
  { intros f n st m Hn. apply Forall_app. split; [assumption|]. repeat constructor. exact Hn. }
  split.
  - intros sha is_prime fuel n setup m u Hp Hn HU. unfold TestMultiSwap. rewrite (Q MultiSwap n setup m) by (try lia; cbn; apply Z.ltb_lt; lia). cbn [bind].
    rewrite HU. cbn [bind].
    destruct (C55_honest_partial poseidon mulmod sha is_prime fuel (Z.to_nat n) setup m MS MC HF Hp ltac:(lia) ltac:(lia)) as [_ H].
    destruct (H u HU) as (c & A & U & _ & _ & _ & S). clear H.
    assert (W : well_formed u).
    { apply C51_is_valid. destruct (IsValid u) eqn:E; [reflexivity|]. unfold AssignCircuit in A. rewrite E in A. discriminate. }
    rewrite (proj2 (proj2 (C51_is_valid u)) W) in A. injection A as <-. unfold users in U. cbn in U.
    assert (N : Z.of_nat (length (u_ID u)) = n) by lia. clear U.
    pose proof (fits_copied u W) as F. rewrite N in F.
    set (l' := l ++ [Did (ETest MultiSwap n setup m rs rp)]).
    pose proof (fun sfx => directory_files pkey vkey g_setup l' (OK MultiSwap n setup m ltac:(lia)) MultiSwap n sfx ltac:(lia)) as D. cbn [prefix_of] in D.
    unfold Prove, Verify, read_pk, read_ccs, read_vk. rewrite N, !D by (cbn; auto). split.
    + intros HS. unfold l'. rewrite (ST _ _ _ _ HS). fold l'. destruct HS as [S1 S2]. destruct (kept l MultiSwap n ".pk.save"); [|reflexivity].
      destruct S2 as [|S2]; [discriminate|]. rewrite S2. cbn. destruct (kept l MultiSwap n ".ccs.save"); [|reflexivity]. cbn.
      rewrite (proj2 (proj2 (C51_is_valid u)) W). cbn [bind]. destruct (ProveRoll _ _ _ _ _ _ _ _ _); reflexivity.
    + intros NS. destruct (kept_test l MultiSwap n setup m rs rp ltac:(cbn; apply Z.ltb_lt; lia) NS) as [s K]. fold l' in K.
      rewrite !K by (cbn; auto). cbn [key_file String.eqb Ascii.eqb Bool.eqb]. unfold key_file. cbn [String.eqb Ascii.eqb Bool.eqb].
      rewrite (proj2 (proj2 (C51_is_valid u)) W). cbn [bind]. unfold ProveRoll. rewrite F, orb_true_r. cbn [negb bind].
      eexists. split; [reflexivity|].
      assert (P : GenPublicWitness (PublicPart u) = public_of (AMulti (copied u))) by (apply (public_eq_iff u (PublicPart u) W); repeat constructor).
      rewrite P.
      assert (I : g_verify (g_proof (fst (g_setup (MultiSwap, n) s)) (MultiSwap, n) (AMulti (copied u)) rp) (snd (g_setup (MultiSwap, n) s)) (public_of (AMulti (copied u))) = true
        <-> satisfied poseidon mulmod (field_circuit (copied u))).
      { rewrite <- (proj1 SO _ _ F). split; [intros H; now apply GB in H|]. intros H. now apply GC. }
      split; [exact I|]. intros NW. apply I, S, NW.
  - intros n setup m Hn. unfold TestMerkleMultiSwap. rewrite (Q MerkleSwap n setup m) by (try lia; reflexivity). cbn [bind].
    set (l' := l ++ [Did (ETest MerkleSwap n setup m rs rp)]).
    pose proof (fun sfx => directory_files pkey vkey g_setup l' (OK MerkleSwap n setup m ltac:(lia)) MerkleSwap n sfx ltac:(lia)) as D. cbn [prefix_of] in D.
    unfold MerkleProve, MerkleVerify, read_pk, read_ccs, read_vk. rewrite !D by (cbn; auto). split.
    + intros HS. unfold l'. rewrite (ST _ _ _ _ HS). fold l'. destruct HS as [S1 S2]. destruct (kept l MerkleSwap n ".pk.save"); [|reflexivity].
      destruct S2 as [|S2]; [discriminate|]. rewrite S2. destruct (kept l MerkleSwap n ".ccs.save"); [|reflexivity]. cbn.
      destruct (ProveRoll _ _ _ _ _ _ _ _ _); reflexivity.
    + intros NS. destruct (kept_test l MerkleSwap n setup m rs rp eq_refl NS) as [s K]. fold l' in K.
      rewrite !K by (cbn; auto). unfold key_file. cbn [String.eqb Ascii.eqb Bool.eqb]. unfold ProveRoll.
      set (c := MerkleAssign poseidon (Z.to_nat n)).
      destruct (proj1 (proj2 (C59_merkle poseidon)) (Z.to_nat n)) as (_ & _ & L1 & L2). fold c in L1, L2.
      assert (F : KeysModel.fits (MerkleSwap, n) (AMerkle c) = true) by (cbn -[Z.of_nat c]; rewrite L1, L2, Z2Nat.id by lia; now rewrite Z.eqb_refl).
      rewrite F, orb_true_r. cbn [negb bind]. rewrite GC; [reflexivity|exact F|]. apply SO; [exact F|]. apply C59_merkle; [exact HF|lia].
Qed.
End Main.

(** stuck sizes stay stuck, whatever else is run or lost; losing the circuit file as well repairs them; and who
    deletes all files of a size or none is never stuck *)
Theorem C95_stays_stuck : forall l more f n, stuck l f n -> Forall (no_repair f n) more -> stuck (l ++ more) f n.
Proof.
  intros l more f n H M. revert l H. induction M as [|i more Hi _ IH]; intros l H; [now rewrite app_nil_r|].
  change (i :: more) with ([i] ++ more). rewrite app_assoc. apply IH. clear IH. unfold stuck in *. rewrite kept_snoc. destruct H as [C K].
  destruct i as [e|g m t]; cbn [kept_step no_repair] in *.
  - destruct (kept l f n ".ccs.save") as [s|] eqn:E; [|contradiction].
    assert (S : match e with
                | ESetup g m r => if family_eqb f g && (n =? m) && compiles f n then fun _ => Some r else kept l f n
                | EContract2 m _ _ r _ _ => if family_eqb f MultiSwap && (n =? m) && compiles f n then fun _ => Some r else kept l f n
                | _ => kept l f n end = kept l f n).
    { destruct e as [g m r|g m st mid rs rp|m rs|m st mid r1 r2 rp]; try reflexivity.
      - destruct (family_eqb_spec f g), (Z.eqb_spec n m); try reflexivity. tauto.
      - destruct (family_eqb_spec f MultiSwap), (Z.eqb_spec n m); try reflexivity. tauto. }
    rewrite S. destruct (next_setup _ _ _ _); rewrite E; split; try discriminate; exact K.
  - split; [|destruct (family_eqb f g && (n =? m)); cbn [andb]; [|exact K]; destruct K as [->| ->]; [left|right]; now destruct (String.eqb _ t)].
    destruct (family_eqb_spec f g), (Z.eqb_spec n m), (String.eqb_spec ".ccs.save" t); cbn [andb]; try exact C. exfalso. subst. tauto.
Qed.
Theorem C95_repair : forall l f n, ~ stuck (l ++ [Lost f n ".ccs.save"]) f n /\
  (forall r, compiles f n = true -> ~ stuck (l ++ [Did (ESetup f n r)]) f n) /\ (careful l -> ~ stuck l f n).
Proof.
  intros l f n. split; [|split].
  - unfold stuck. rewrite kept_snoc. cbn [kept_step]. rewrite Z.eqb_refl. replace (family_eqb f f) with true by now destruct f. cbn. tauto.
  - intros r C. unfold stuck. rewrite kept_snoc. cbn [kept_step next_setup]. rewrite Z.eqb_refl, C. replace (family_eqb f f) with true by now destruct f. cbn [andb orb].
    destruct (kept l f n ".ccs.save"); intros [_ [H|H]]; discriminate.
  - intros H. destruct (careful_kept l H f n) as [c K]. unfold stuck. rewrite !K by (cbn; auto). intros [A [B|B]]; congruence.
Qed.

(** a lost verifying key: the test of size 4 passed before, and then panics for ever *)
Definition lost_item : list item := [Did (ETest MultiSwap 4 {| sN := 35; sG := 2; sH := 3 |} 3 1 2)].
Theorem C95_lost_refuted : exists (sat : ccs -> assignment -> bool) poseidon mulmod sha is_prime fuel setup m l n,
  ideal toy_setup toy_proof (toy_verify sat) sat /\ sat_ok poseidon mulmod sat /\ mulmod_sound mulmod /\ mulmod_complete mulmod /\
  (forall l, in_fr (poseidon l)) /\ positive_test is_prime /\ Forall item_ok l /\ 2 <= n <= 2 ^ 31 /\
  let test l rs rp := TestMultiSwap (ccs * nat) (ccs * nat) ((ccs * nat) * assignment * nat) toy_setup toy_proof (toy_verify sat) sat
    poseidon sha is_prime fuel (directory toy_setup l) n setup m rs rp in
  (forall rs rp, exists fs, test l rs rp = Ret (fs, true)) /\
  (forall more rs rp, Forall item_ok more -> Forall (no_repair MultiSwap n) more -> test (l ++ [Lost MultiSwap n ".vk.save"] ++ more) rs rp = Panic).
Proof.
  destruct C83_tests_case as (u & HU & NW). set (st := {| sN := 35; sG := 2; sH := 3 |}) in *.
  exists (toy_sat toy_pos), toy_pos, exact_mulmod, (one_byte "007"%char), seven, 5%nat, st, 3, lost_item, 4.
  assert (P : positive_test seven) by (intros x Hx; apply Z.eqb_eq in Hx; lia).
  assert (I : Forall item_ok lost_item) by (repeat constructor; cbn; lia).
  split; [apply toy_ideal|]. split; [apply toy_sat_ok|]. split; [exact exact_sound|]. split; [exact exact_complete|]. split; [exact toy_pos_fr|].
  split; [exact P|]. split; [exact I|]. split; [lia|]. cbv zeta. split.
  - intros rs rp.
    destruct (proj1 (C95_lost_partial _ _ _ _ _ _ _ _ _ (toy_ideal (toy_sat toy_pos)) (toy_sat_ok toy_pos) exact_sound exact_complete toy_pos_fr lost_item rs rp I)
      (one_byte "007"%char) seven 5%nat 4 st 3 u P ltac:(lia) HU) as [_ H].
    destruct H as (b & -> & _ & B); [intros [_ [H|H]]; discriminate H|]. rewrite (B NW). eauto.
  - intros more rs rp HO HM.
    assert (I' : Forall item_ok (lost_item ++ [Lost MultiSwap 4 ".vk.save"] ++ more)).
    { apply Forall_app. split; [exact I|]. apply Forall_app. split; [|exact HO]. constructor; [split; [lia|cbn; auto]|constructor]. }
    apply (proj1 (proj1 (C95_lost_partial _ _ _ _ _ _ _ _ _ (toy_ideal (toy_sat toy_pos)) (toy_sat_ok toy_pos) exact_sound exact_complete toy_pos_fr _ rs rp I')
      (one_byte "007"%char) seven 5%nat 4 st 3 u P ltac:(lia) HU)).
    rewrite app_assoc. apply C95_stays_stuck; [|exact HM]. split; [discriminate|right; reflexivity].
Qed.

(** cases: a size that is stuck and stays so while others are set up; one that is not after its files are wiped *)
Example C95_case : let l := lost_item ++ [Lost MultiSwap 4 ".pk.save"] in
  stuck l MultiSwap 4 /\ Forall (no_repair MultiSwap 4) [Did (ESetup MultiSwap 5 3); Did (EContract 4 7); Lost MultiSwap 4 ".vk.save"; Did (ESetup MerkleSwap 4 1)] /\
  careful (lost_item ++ wipe MultiSwap 4) /\ kept lost_item MultiSwap 4 ".vk.save" = Some 1%nat.
Proof.
  cbv zeta. split; [split; [discriminate|left; reflexivity]|]. split.
  - repeat constructor; cbn; intuition congruence.
  - split; [|reflexivity]. apply careful_wipe. apply (careful_did []). constructor.
Qed.

Print Assumptions C95_lost_partial. Print Assumptions C95_stays_stuck. Print Assumptions C95_repair. Print Assumptions C95_lost_refuted.
