(** Proofs about RaceModel.v: the invariant behind freedom from data races. *)
From Coq Require Import ZArith Bool Lia List Permutation.
From Verif Require Import GoBig AccModel IterModel ListUpd ParIterModel RaceModel.
Import ListNotations.
Local Open Scope nat_scope.

(** ** numbers: those being written (work), those about to be read (held), those in the list (P) *)
Section Safe.
Variable inputs : list addr.
Definition safe (n : nat) (own P H w : list addr) : Prop :=
  (forall a, In a (inputs ++ P ++ H ++ own) -> a < n) /\ NoDup w /\ incl w own /\
  (forall a, In a w -> ~ In a (inputs ++ P ++ H)) /\ (forall a, In a own -> ~ In a inputs).

Lemma safe_shrink : forall n own P H w n' P' H', safe n own P H w -> n <= n' -> incl P' P -> incl H' (H ++ P) -> safe n' own P' H' w.
Proof.
  intros n own P H w n' P' H' (S1 & S2 & S3 & S4 & S5) L IP IH.
  assert (I : forall a, In a (inputs ++ P' ++ H') -> In a (inputs ++ P ++ H)).
  { intros a. rewrite !in_app_iff. intros [A|[A|A]]; auto. apply IH in A. rewrite in_app_iff in A. tauto. }
  split; [|split; [exact S2|split; [exact S3|split; [|exact S5]]]].
  - intros a A. assert (a < n); [|lia]. apply S1. rewrite !in_app_iff in *. destruct A as [A|[A|[A|A]]]; auto.
    apply IH in A. rewrite in_app_iff in A. tauto.
  - intros a A B. apply (S4 a A). now apply I.
Qed.
Lemma safe_perm : forall n own P H w w', Permutation w w' -> safe n own P H w -> safe n own P H w'.
Proof.
  intros n own P H w w' Pm (S1 & S2 & S3 & S4 & S5). split; [exact S1|]. split; [eapply Permutation_NoDup; eauto|].
  split; [|split; [|exact S5]]; intros a A; [apply S3|apply S4]; apply Permutation_sym in Pm; eapply Permutation_in; eauto.
Qed.
Lemma safe_alloc : forall n own P H w, safe n own P H w -> safe (S n) (n :: own) P H (n :: w).
Proof.
  intros n own P H w (S1 & S2 & S3 & S4 & S5).
  assert (F : ~ In n (inputs ++ P ++ H ++ own)) by (intros A; apply S1 in A; lia).
  rewrite !in_app_iff in F. split; [|split; [|split; [|split]]].
  - intros a. rewrite !in_app_iff. cbn [In]. intros A. destruct (Nat.eq_dec n a); [lia|]. assert (a < n); [|lia]. apply S1. rewrite !in_app_iff. tauto.
  - constructor; [|exact S2]. intros A. apply S3 in A. tauto.
  - intros a [<-|A]; [now left|right; now apply S3].
  - intros a [<-|A]; [|now apply S4]. rewrite !in_app_iff. tauto.
  - intros a [<-|A]; [tauto|now apply S5].
Qed.
Lemma safe_publish : forall n own P H c w P' H', safe n own P H (c :: w) -> incl P' (c :: P) -> incl H' (H ++ P) -> safe n own P' H' w.
Proof.
  intros n own P H c w P' H' (S1 & S2 & S3 & S4 & S5) IP IH. inversion S2 as [|? ? N1 N2]; subst.
  split; [|split; [exact N2|split; [|split; [|exact S5]]]].
  - intros a A. apply S1. rewrite !in_app_iff in *. destruct A as [A|[A|[A|A]]]; auto.
    + apply IP in A. destruct A as [<-|A]; [|auto]. right. right. right. apply S3. now left.
    + apply IH in A. rewrite in_app_iff in A. tauto.
  - intros a A. apply S3. now right.
  - intros a A B. apply (S4 a); [now right|]. rewrite !in_app_iff in *. destruct B as [B|[B|B]]; auto.
    + apply IP in B. destruct B as [<-|B]; [contradiction|auto].
    + apply IH in B. rewrite in_app_iff in B. tauto.
Qed.
End Safe.

Definition awork (a : apc) : list addr := match a with ANew _ _ => [] | ASet c _ _ | ASlot c _ | AExp c _ _ => [c] end.
Definition aheld (a : apc) : list addr := match a with ANew g _ | ASet _ g _ => [g] | _ => [] end.
Definition aelem (a : apc) : list addr := match a with AExp _ e _ => [e] | _ => [] end.
Definition mwork (p : mpc) : list addr :=
  match p with M468acc _ _ _ a => awork a | M469 _ _ _ c | M465 _ _ _ c _ => [c] | M473w _ _ _ _ v => [v] | _ => [] end.
Definition mheld (p : mpc) : list addr := match p with M468acc _ _ _ a => aheld a | _ => [] end.
Definition melem (p : mpc) : list addr := match p with M468acc _ _ _ a => aelem a | _ => [] end.
Definition hwork (h : hpc') : list addr := match h with H407acc _ _ a => awork a | H407s c => [c] | _ => [] end.
Definition hheld (h : hpc') : list addr := match h with H407acc _ _ a => aheld a | _ => [] end.
Definition helem (h : hpc') : list addr := match h with H407acc _ _ a => aelem a | _ => [] end.
Definition proofs_of (s : R) : list addr := map n_proof (r_nodes s).

(** the node being split *)
Definition cur (p : mpc) : option nat :=
  match p with
  | M462 i _ | M464 i _ _ | M468 i _ _ | M468acc i _ _ _ | M469 i _ _ _ | M465 i _ _ _ _ | M471 i _ _ _ | M472 i _ _ _ | M473 i _ _ _ => Some i
  | _ => None
  end.
(** where the caller's goroutine is while the helper works *)
Definition window (p : mpc) : option nat :=
  match p with M462 _ _ | M464 _ _ _ => None | _ => cur p end.
Definition idle (h : hpc') : Prop := h = H405 \/ h = H409.

Section Inv.
Variable set : list addr.
Variable Np base : addr.
Variable left right : nat.
Notation inputs := (base :: Np :: set).

Record RInv (s : R) : Prop := {
  ri_safe : safe inputs (length (r_mem s)) (r_own s) (proofs_of s) (mheld (r_pc s) ++ hheld (r_hp s)) (mwork (r_pc s) ++ hwork (r_hp s));
  ri_elem : incl (melem (r_pc s) ++ helem (r_hp s)) set;
  ri_cur : forall i, cur (r_pc s) = Some i -> r_iter s = Some i /\ i < length (r_nodes s);
  ri_461 : forall i, r_pc s = M461 i -> r_iter s = Some i;
  ri_help : idle (r_hp s) \/ exists i, window (r_pc s) = Some i;
  ri_407 : forall l r i, r_hp s = H407b l r i -> r_iter s = Some i;
  ri_473w : forall i l r n v, r_pc s = M473w i l r n v -> idle (r_hp s)
}.

Lemma rinv_start : forall m, (forall a, In a inputs -> a < length m) -> RInv (rstart base left right m).
Proof.
  intros m H. constructor; cbn; try (intros; discriminate); auto.
  - split; [|split; [constructor|split; [intros a []|split; [intros a []|intros a []]]]].
    intros a A. apply H. cbn in *. rewrite in_app_iff in A. cbn in A. tauto.
  - intros a [].
  - left. now left.
Qed.

Lemma store_length : forall (m : mem) a v, a < length m -> length (store m a v) = length m.
Proof. intros m a v H. unfold store. rewrite app_length, firstn_length. cbn [length]. rewrite skipn_length. lia. Qed.

(** a step inside accumulateNew *)
Lemma astep_safe : forall m own a m' own' a' P H w, astep set Np m own a = Some (Ret (m', own', a')) ->
  safe inputs (length m) own P (aheld a ++ H) (awork a ++ w) -> incl (aelem a) set ->
  safe inputs (length m') own' P (aheld a' ++ H) (awork a' ++ w) /\ incl (aelem a') set /\ length m <= length m'.
Proof.
  intros m own a m' own' a' P H w E S I. destruct a as [g part|c g part|c [|k part]|c e part]; cbn in E; try discriminate.
  - injection E as <- <- <-. rewrite app_length. cbn [length]. rewrite Nat.add_1_r. cbn [aheld awork aelem app] in *.
    split; [now apply safe_alloc|]. split; [intros a []|lia].
  - assert (C : c < length m) by (destruct S as (S1 & _ & S3 & _); apply S1; rewrite !in_app_iff; right; right; right; apply S3; now left).
    destruct (load m g) as [v| |]; cbn in E; try discriminate. injection E as <- <- <-. rewrite store_length by exact C. cbn [aheld awork aelem app] in *.
    split; [|split; [intros a []|lia]]. eapply safe_shrink; [exact S|lia|apply incl_refl|]. intros a A. rewrite in_app_iff. left. now right.
  - unfold go_index in E. destruct (nth_error set k) as [e|] eqn:Ek; cbn in E; try discriminate. injection E as <- <- <-. cbn [aheld awork aelem app] in *.
    split; [exact S|]. split; [|lia]. intros x [<-|[]]. eapply nth_error_In; eauto.
  - assert (C : c < length m) by (destruct S as (S1 & _ & S3 & _); apply S1; rewrite !in_app_iff; right; right; right; apply S3; now left).
    destruct (load m c) as [x| |]; cbn in E; try discriminate. destruct (load m e) as [y| |]; cbn in E; try discriminate.
    destruct (load m Np) as [z| |]; cbn in E; try discriminate. injection E as <- <- <-. rewrite store_length by exact C. cbn [aheld awork aelem app] in *.
    split; [exact S|]. split; [intros a []|lia].
Qed.
Lemma upd_incl : forall A (l : list A) i x, incl (upd l i x) (x :: l).
Proof.
  induction l as [|y l IH]; intros [|i] x z Hz; cbn [upd] in Hz; [destruct Hz|destruct Hz| |].
  - destruct Hz as [<-|Hz]; [now left|right; now right].
  - destruct Hz as [<-|Hz]; [right; now left|]. apply IH in Hz. destruct Hz; [now left|right; now right].
Qed.
Lemma upd_same_proof : forall l i (nd nd' : rnode), nth_error l i = Some nd -> n_proof nd' = n_proof nd ->
  incl (map n_proof (upd l i nd')) (map n_proof l).
Proof.
  intros l i nd nd' E Q a A. apply in_map_iff in A. destruct A as (x & <- & A). apply upd_incl in A. destruct A as [<-|A].
  - rewrite Q. apply in_map. eapply nth_error_In; eauto.
  - now apply in_map.
Qed.
Lemma upd_new_proof : forall l i (nd' : rnode) v, n_proof nd' = v -> incl (map n_proof (upd l i nd')) (v :: map n_proof l).
Proof.
  intros l i nd' v Q a A. apply in_map_iff in A. destruct A as (x & <- & A). apply upd_incl in A. destruct A as [<-|A]; [now left|right; now apply in_map].
Qed.

Ltac recs := cbn [r_mem r_own r_nodes r_iter r_flag r_pc r_hp r_cancelled goto put_iter put_flag put_nodes put_mem hgoto hput_mem] in *.
Ltac inv1 H := match type of H with
  | Some (Ret _) = Some (Ret _) => injection H as <-
  | Some (bind ?o _) = Some (Ret _) => let x := fresh "x" in let E := fresh "E" in destruct o as [x| |] eqn:E; cbn [bind] in H; try discriminate
  end.

Ltac same S := eapply safe_shrink; [exact S|lia|apply incl_refl|let a := fresh in let A := fresh in intros a A; rewrite ?in_app_iff in *; cbn [In] in *; tauto].
Ltac dull := recs; cbn [cur window mwork mheld melem hwork hheld helem app] in *; try (intros; discriminate); try assumption; try (intros; congruence).

Ltac parts S CU NOTW ID C407 :=
  constructor; unfold proofs_of; recs; cbn [cur window mwork mheld melem hwork hheld helem app] in *;
  [ same S | assumption | (intros ? [= <-]; apply CU; reflexivity) || (intros; discriminate) | intros; discriminate
  | (left; apply NOTW; reflexivity) || (right; eexists; reflexivity)
  | intros ? ? ? ?E0; (exfalso; eapply ID; [apply NOTW; reflexivity|exact E0]) || (eapply C407; exact E0)
  | intros; discriminate ].

Lemma deref_some : forall A (o : option A) x, deref o = Ret x -> o = Some x.
Proof. intros A [y|] x H; cbn in H; congruence. Qed.

Lemma mstep_inv : forall s s', RInv s -> mstep set Np s = Some (Ret s') -> RInv s'.
Proof.
  intros [m own ns it fl pc hp cn] s' [S EL CU C461 HP C407 C473] H. unfold mstep, node in H. unfold proofs_of in *. recs.
  assert (NOTW : window pc = None -> idle hp) by (intros W; destruct HP as [HP|[i HP]]; [exact HP|congruence]).
  assert (ID : idle hp -> forall l r i, hp = H407b l r i -> False) by (intros [-> | ->]; discriminate).
  destruct pc; cbn [cur window mwork mheld melem app] in *; try discriminate;
    try (repeat inv1 H; parts S CU NOTW ID C407; fail).
  - (* M413 *) inv1 H. destruct fl; parts S CU NOTW ID C407.
  - (* M416 *) inv1 H. destruct it; parts S CU NOTW ID C407.
  - (* M417d *) inv1 H. inv1 H. destruct (r - n_left x <=? 1); parts S CU NOTW ID C407.
  - (* M421 *) inv1 H. inv1 H. apply deref_some in E. constructor; unfold proofs_of; recs; cbn [cur window mwork mheld melem hwork hheld helem app] in *;
      [exact S|exact EL|discriminate|intros i [= <-]; exact E|left; now apply NOTW|exact C407|discriminate].
  - (* M461 *) inv1 H. inv1 H. apply deref_some in E. constructor; unfold proofs_of; recs; cbn [cur window mwork mheld melem hwork hheld helem app] in *;
      [exact S|exact EL|intros i0 [= <-]; split; [now apply C461|eapply nth_some_lt; eauto]|discriminate|left; now apply NOTW|exact C407|discriminate].
  - (* M468 *) inv1 H. inv1 H. inv1 H. apply deref_some in E. constructor; unfold proofs_of; recs; cbn [cur window mwork mheld melem hwork hheld helem app aheld awork aelem] in *;
      [|exact EL|exact CU|discriminate|right; eexists; reflexivity|exact C407|discriminate].
    eapply safe_shrink; [exact S|lia|apply incl_refl|]. intros a [<-|A]; rewrite in_app_iff; [right|now left]. apply in_map. eapply nth_error_In; eauto.
  - (* M468acc *) destruct (result_of a) as [c|] eqn:Ra.
    + destruct a as [g part|c' g part|c' [|k part]|c' e part]; try discriminate. injection Ra as ->. inv1 H. parts S CU NOTW ID C407.
    + destruct (astep set Np m own a) as [o|] eqn:Ea; [|discriminate]. destruct o as [[[m' own'] a']| |]; cbn [bind] in H; try discriminate. inv1 H.
      destruct (astep_safe _ _ _ _ _ _ _ _ _ Ea S) as (S' & EL' & Lm). { intros e0 A. apply EL. rewrite in_app_iff. now left. }
      constructor; unfold proofs_of; recs; cbn [cur window mwork mheld melem] in *;
      [exact S'| |exact CU|discriminate|exact HP|exact C407|discriminate].
      intros e0 A. rewrite in_app_iff in A. destruct A as [A|A]; [now apply EL'|]. apply EL. rewrite in_app_iff. now right.
  - (* M465 *) inv1 H. constructor; unfold proofs_of; recs; cbn [cur window mwork mheld melem app] in *;
      [|exact EL| |discriminate|right; eexists; reflexivity|exact C407|discriminate].
    + eapply safe_publish; [exact S| |]. { rewrite map_app. intros a A. rewrite in_app_iff in A. destruct A as [A|[<-|[]]]; [now right|now left]. }
      intros a A. rewrite in_app_iff. now left.
    + intros i0 [= <-]. destruct (CU i eq_refl). rewrite app_length. split; [assumption|lia].
  - (* M471 *) inv1 H. inv1 H. apply deref_some in E. constructor; unfold proofs_of; recs; cbn [cur window mwork mheld melem app] in *;
      [|exact EL|rewrite length_upd; exact CU|discriminate|right; eexists; reflexivity|exact C407|discriminate].
    eapply safe_shrink; [exact S|lia|eapply upd_same_proof; [exact E|reflexivity]|]. intros a A. rewrite in_app_iff. now left.
  - (* M472 *) inv1 H. inv1 H. apply deref_some in E. constructor; unfold proofs_of; recs; cbn [cur window mwork mheld melem app] in *;
      [|exact EL|rewrite length_upd; exact CU|discriminate|right; eexists; reflexivity|exact C407|discriminate].
    eapply safe_shrink; [exact S|lia|eapply upd_same_proof; [exact E|reflexivity]|]. intros a A. rewrite in_app_iff. now left.
  - (* M473w *) inv1 H. inv1 H. apply deref_some in E. constructor; unfold proofs_of; recs; cbn [cur window mwork mheld melem app] in *;
      [|exact EL|discriminate|discriminate|left; now apply NOTW|exact C407|discriminate].
    eapply safe_publish; [exact S|apply upd_new_proof; reflexivity|]. intros a A. rewrite in_app_iff. now left.
  - (* M474 *) inv1 H. inv1 H. apply deref_some in E. constructor; unfold proofs_of; recs; cbn [cur window mwork mheld melem app] in *;
      [|exact EL|discriminate|discriminate|left; now apply NOTW|exact C407|discriminate].
    eapply safe_shrink; [exact S|lia|eapply upd_same_proof; [exact E|reflexivity]|]. intros a A. rewrite in_app_iff. now left.
  - (* M427t *) inv1 H. destruct it; parts S CU NOTW ID C407.
Qed.

Lemma hstep_inv : forall s s', RInv s -> hstep set Np s = Some (Ret s') -> RInv s'.
Proof.
  intros [m own ns it fl pc hp cn] s' [S EL CU C461 HP C407 C473] H. unfold hstep, node in H. unfold proofs_of in *. recs.
  assert (W : idle hp -> RInv s') by (intros [-> | ->]; discriminate).
  destruct HP as [HP|(i & HP)]; [now apply W|]. clear W.
  assert (N473 : forall i l r n v, pc = M473w i l r n v -> False) by (intros; subst; discriminate).
  destruct hp; try discriminate; cbn [hwork hheld helem] in *.
  - inv1 H. inv1 H. apply deref_some in E. constructor; unfold proofs_of; recs; cbn [hwork hheld helem] in *;
      [exact S|exact EL|exact CU|exact C461|right; eauto|intros ? ? ? [= <- <- <-]; exact E|intros; exfalso; eauto].
  - inv1 H. inv1 H. inv1 H. apply deref_some in E. constructor; unfold proofs_of; recs; cbn [hwork hheld helem aheld awork aelem] in *;
      [|exact EL|exact CU|exact C461|right; eauto|discriminate|intros; exfalso; eauto].
    eapply safe_shrink; [exact S|lia|apply incl_refl|]. intros a A. rewrite in_app_iff in A. rewrite !in_app_iff. destruct A as [A|[<-|[]]]; [tauto|].
    right. apply in_map. eapply nth_error_In; eauto.
  - destruct (result_of a) as [c|] eqn:Ra.
    + destruct a as [g part|c' g part|c' [|k part]|c' e part]; try discriminate. injection Ra as ->. inv1 H.
      constructor; unfold proofs_of; recs; cbn [hwork hheld helem awork aheld aelem] in *;
      [exact S|exact EL|exact CU|exact C461|right; eauto|discriminate|intros; exfalso; eauto].
    + destruct (astep set Np m own a) as [o|] eqn:Ea; [|discriminate]. destruct o as [[[m' own'] a']| |]; cbn [bind] in H; try discriminate. inv1 H.
      assert (S0 : safe inputs (length m) own (map n_proof ns) (aheld a ++ mheld pc) (awork a ++ mwork pc)).
      { eapply safe_perm; [apply Permutation_app_comm|]. eapply safe_shrink; [exact S|lia|apply incl_refl|]. intros x A. rewrite !in_app_iff in *. tauto. }
      destruct (astep_safe _ _ _ _ _ _ _ _ _ Ea S0) as (S' & EL' & Lm). { intros e0 A. apply EL. rewrite in_app_iff. now right. }
      constructor; unfold proofs_of; recs; cbn [hwork hheld helem] in *;
      [| |exact CU|exact C461|right; eauto|discriminate|intros; exfalso; eauto].
      * eapply safe_perm; [apply Permutation_app_comm|]. eapply safe_shrink; [exact S'|lia|apply incl_refl|]. intros x A. rewrite !in_app_iff in *. tauto.
      * intros e0 A. rewrite in_app_iff in A. destruct A as [A|A]; [|now apply EL']. apply EL. rewrite in_app_iff. now left.
Qed.

Lemma pstep_inv : forall s s', RInv s -> pstep set Np s s' -> RInv s'.
Proof.
  intros s s' I H. destruct H as [s' H|s' H|s' H|s' H|s' H]; [eapply mstep_inv; eauto|eapply hstep_inv; eauto| | |].
  - destruct s as [m own ns it fl pc hp cn], I as [S EL CU C461 HP C407 C473]. unfold csend in H. unfold proofs_of in *. recs.
    destruct pc; try discriminate. destruct hp; try discriminate. injection H as <-.
    constructor; unfold proofs_of; recs; cbn [cur window mwork mheld melem hwork hheld helem app] in *;
      [exact S|exact EL|exact CU|discriminate|right; eauto|discriminate|discriminate].
  - destruct s as [m own ns it fl pc hp cn], I as [S EL CU C461 HP C407 C473]. unfold citer in H. unfold proofs_of in *. recs.
    destruct pc; try discriminate. destruct hp; try discriminate. injection H as <-.
    constructor; unfold proofs_of; recs; cbn [cur window mwork mheld melem hwork hheld helem app] in *;
      [exact S|exact EL|discriminate|discriminate|left; now left|discriminate|intros; now left].
  - destruct s as [m own ns it fl pc hp cn], I as [S EL CU C461 HP C407 C473]. unfold cdone in H. unfold proofs_of in *. recs.
    destruct hp; try discriminate. destruct cn; try discriminate. injection H as <-.
    constructor; unfold proofs_of; recs; cbn [hwork hheld helem app] in *;
      [exact S|exact EL|exact CU|exact C461|left; now right|discriminate|intros; now right].
Qed.
Lemma env_inv : forall s s', RInv s -> env set Np base s s' -> RInv s'.
Proof.
  intros s s' I H. destruct s as [m own ns it fl pc hp cn], I as [S EL CU C461 HP C407 C473]. destruct H as (m' & -> & Lm & _). unfold proofs_of in *. recs.
  constructor; unfold proofs_of; recs; try assumption. eapply safe_shrink; [exact S|exact Lm|apply incl_refl|]. intros a A. rewrite in_app_iff. now left.
Qed.
Lemma reached_inv : forall m k s, (forall a, In a inputs -> a < length m) -> reached set Np base left right m k s -> RInv s.
Proof. intros m k s H R. induction R; [now apply rinv_start|eapply pstep_inv; eauto|eapply env_inv; eauto]. Qed.
End Inv.
