(** Proofs about SliceModel.v. *)
From Coq Require Import ZArith Bool List Lia.
From Verif Require Import GoBig Spec AccModel AccFacts AccProofs SliceModel.
Import ListNotations.
Open Scope nat_scope.

Ltac Zify.zify_post_hook ::= Z.to_euclidean_division_equations.

(** the fuel of the list model suffices for every input *)
Lemma map_outcome_fuel : forall (A B : Type) (f : A -> outcome B) l, (forall x, f x <> OutOfFuel) -> map_outcome f l <> OutOfFuel.
Proof.
  intros A B f l H. induction l as [|x l IH]; cbn [map_outcome]; [discriminate|].
  specialize (H x). destruct (f x); cbn [bind]; try congruence. destruct (map_outcome f l); cbn [bind]; congruence.
Qed.
Lemma multi_exp_fuel : forall base N es, multi_exp base N es <> OutOfFuel.
Proof. intros. apply map_outcome_fuel. intros e. now destruct (big_exp base e N). Qed.
Lemma prove_membership_fuel : forall f base N vs, length vs <= f -> prove_membership f base N vs <> OutOfFuel.
Proof.
  assert (S : forall base N vs, handleSmallSet base N vs <> OutOfFuel).
  { intros base N vs. destruct vs as [|x0 [|x1 [|x2 [|x3 [|x4 vs]]]]]; cbn [handleSmallSet]; try discriminate;
      try apply multi_exp_fuel.
    pose proof (multi_exp_fuel base N [(x1 * x2)%Z; (x0 * x2)%Z]). destruct (multi_exp _ _ _); cbn [bind]; congruence. }
  induction f as [|f IH]; intros base N vs Hf; cbn [prove_membership]; destruct (Nat.leb_spec (length vs) 4); auto; [lia|].
  cbv zeta. rewrite !go_slice_ret by lia. cbn [bind]. rewrite !SetProductRecursiveFast_spec. cbn [bind].
  match goal with |- bind (multi_exp ?b ?n ?es) _ <> _ => pose proof (multi_exp_fuel b n es); destruct (multi_exp b n es) as [bs| |] end;
    cbn [bind]; try congruence.
  destruct bs as [|b0 [|b1 [|b2 [|b3 [|b4 bs]]]]]; try discriminate.
  repeat match goal with |- bind (prove_membership f ?b N ?l) _ <> _ =>
    assert (prove_membership f b N l <> OutOfFuel) by (apply IH; rewrite slice_length; lia);
    destruct (prove_membership f b N l); cbn [bind]; try congruence end.
Qed.
Lemma ProveMembership_fuel : forall base N vs, ProveMembership base N vs <> OutOfFuel.
Proof. intros. now apply prove_membership_fuel. Qed.

(** ** well-formed slices and what they hold *)
Definition holds (h : heap) (s : hdr) (vs : list Z) : Prop := wf h s /\ view h s = map Some vs.
(** the array of [s] is among the first [n] *)
Definition low (n : nat) (s : hdr) : Prop := h_arr s < n \/ h_cap s = 0.

(** the first [n] arrays are as before *)
Definition keeps (n : nat) (h h' : heap) : Prop :=
  length h <= length h' /\ forall a, a < n -> array h' a = array h a.

Definition fine (n n' : nat) (P : nat -> nat -> Prop) (x : access) : Prop :=
  match x with
  | Rd a i => P a i \/ n <= a < n'
  | Wr a i => n <= a < n'
  | Race => False
  end.

Definition sim {A B} (n : nat) (P : nat -> nat -> Prop) (f : M A) (h : heap) (o : outcome B)
  (Q : B -> A -> heap -> Prop) : Prop :=
  match o with
  | Ret b => exists a h' l, f h = Ret (a, h', l) /\ keeps n h h' /\
               Forall (fine n (length h') P) l /\ Q b a h'
  | Panic => f h = Panic
  | OutOfFuel => f h = OutOfFuel
  end.

Lemma keeps_refl : forall n h, keeps n h h.
Proof. now split. Qed.
Lemma keeps_trans : forall n h1 h2 h3, keeps n h1 h2 -> keeps n h2 h3 -> keeps n h1 h3.
Proof. intros n h1 h2 h3 [L1 K1] [L2 K2]. split; [lia|]. intros a H. now rewrite K2, K1. Qed.
Lemma keeps_le : forall m n h h', m <= n -> keeps n h h' -> keeps m h h'.
Proof. intros m n h h' H [L K]. split; [exact L|]. intros a Ha. apply K. lia. Qed.

Lemma fine_mono : forall n1 n1' n n' (P1 P : nat -> nat -> Prop) (l : list access),
  n <= n1 -> n1' <= n' -> (forall a i, P1 a i -> P a i \/ n <= a < n1') ->
  Forall (fine n1 n1' P1) l -> Forall (fine n n' P) l.
Proof.
  intros n1 n1' n n' P1 P l Hn Hn' HP H. eapply Forall_impl; [|exact H].
  intros [a i|a i|] F; cbn [fine] in *; [|lia|exact F].
  destruct F as [F|F]; [destruct (HP _ _ F); [now left|right; lia]|right; lia].
Qed.

Lemma sim_bind : forall A B C D n P (f : M A) (g : A -> M C) h (o : outcome B) (og : B -> outcome D) Q R,
  sim n P f h o Q ->
  (forall b a h1, keeps n h h1 -> Q b a h1 -> sim n P (g a) h1 (og b) R) ->
  sim n P (mbind f g) h (bind o og) R.
Proof.
  intros A B C D n P f g h o og Q R Hf Hg. destruct o as [b| |]; cbn [sim bind] in *.
  - destruct Hf as (a & h1 & l1 & Ef & K1 & F1 & HQ). specialize (Hg b a h1 K1 HQ).
    unfold sim in *. destruct (og b) as [d| |].
    + destruct Hg as (c & h2 & l2 & Eg & K2 & F2 & HR). exists c, h2, (l1 ++ l2).
      split; [unfold mbind; rewrite Ef; cbn [bind]; rewrite Eg; reflexivity|].
      split; [eapply keeps_trans; eassumption|]. split; [|exact HR].
      apply Forall_app. split; [|exact F2].
      eapply fine_mono; [apply Nat.le_refl|exact (proj1 K2)| |exact F1]. intros; now left.
    + unfold mbind. rewrite Ef. cbn [bind]. now rewrite Hg.
    + unfold mbind. rewrite Ef. cbn [bind]. now rewrite Hg.
  - unfold mbind. now rewrite Hf.
  - unfold mbind. now rewrite Hf.
Qed.
(** a step of which the list model knows nothing *)
Lemma sim_step : forall A B C D n P (f : M A) (g : A -> M C) h (b : B) (o : outcome D) Q R,
  sim n P f h (Ret b) Q ->
  (forall a h1, keeps n h h1 -> Q b a h1 -> sim n P (g a) h1 o R) ->
  sim n P (mbind f g) h o R.
Proof.
  intros A B C D n P f g h b o Q R Hf Hg.
  apply (sim_bind A B C D n P f g h (Ret b) (fun b => o)
           (fun b' a h1 => b' = b /\ Q b a h1) R); cbn [sim] in *.
  - destruct Hf as (a & h1 & l & ?). exists a, h1, l. tauto.
  - intros b' a h1 K [-> HQ]. now apply Hg.
Qed.

Lemma sim_weaken : forall A B n1 n (P1 P : nat -> nat -> Prop) (f : M A) h (o : outcome B) (Q Q' : B -> A -> heap -> Prop),
  sim n1 P1 f h o Q -> n <= n1 ->
  (forall a i, P1 a i -> P a i \/ n <= a < length h) ->
  (forall b a h', keeps n1 h h' -> Q b a h' -> Q' b a h') -> sim n P f h o Q'.
Proof.
  intros A B n1 n P1 P f h o Q Q' H Hn HP HQ. destruct o as [b| |]; cbn [sim] in *; try exact H.
  destruct H as (a & h' & l & E & K & F & HR). exists a, h', l.
  split; [exact E|]. split; [now apply (keeps_le n n1)|]. split; [|now apply HQ].
  eapply fine_mono; [exact Hn|apply Nat.le_refl| |exact F].
  intros x i Hx. destruct (HP _ _ Hx) as [G|G]; [now left|right; destruct K; lia].
Qed.

Lemma sim_ret : forall A B n P (a : A) h (b : B) (Q : B -> A -> heap -> Prop),
  Q b a h -> sim n P (ret a) h (Ret b) Q.
Proof.
  intros. cbn [sim]. exists a, h, []. split; [reflexivity|]. split; [apply keeps_refl|].
  split; [constructor|assumption].
Qed.
Lemma sim_lift : forall A n P (o : outcome A) h,
  sim n P (lift o) h o (fun b a h' => a = b /\ h' = h).
Proof.
  intros A n P [a| |] h; cbn [sim]; unfold lift; cbn [bind]; try reflexivity.
  exists a, h, []. split; [reflexivity|]. split; [apply keeps_refl|]. now split; [constructor|].
Qed.

(** ** slices *)
Lemma view_length : forall h s, wf h s -> length (view h s) = h_len s.
Proof.
  intros h s [L [C|C]]; unfold view; rewrite firstn_length, skipn_length; lia.
Qed.
Lemma holds_length : forall h s vs, holds h s vs -> length vs = h_len s.
Proof. intros h s vs [W V]. rewrite <- (view_length h s W), V. now rewrite map_length. Qed.

Lemma low_keeps : forall n h h' s, keeps n h h' -> low n s -> wf h s -> wf h' s /\ view h' s = view h s.
Proof.
  intros n h h' s [L K] [A|C] [Lc W].
  - unfold wf, view. rewrite (K _ A). auto.
  - unfold wf, view. assert (E : h_len s = 0) by lia. rewrite E, C. cbn [firstn]. auto.
Qed.
Lemma holds_keeps : forall n h h' s vs, keeps n h h' -> low n s -> holds h s vs -> holds h' s vs.
Proof.
  intros n h h' s vs K Lo [W V]. destruct (low_keeps _ _ _ _ K Lo W) as [W' V'].
  split; [exact W'|]. now rewrite V'.
Qed.

Definition sub (s : hdr) (i j : nat) : hdr := Hdr (h_arr s) (h_off s + i) (j - i) (h_cap s - i).

Lemma sub_holds : forall h s vs i j, holds h s vs -> i <= j <= length vs -> holds h (sub s i j) (slice vs i j).
Proof.
  intros h s vs i j H Hij. pose proof (holds_length _ _ _ H) as Hl. destruct H as [[Lc W] V].
  split.
  - unfold wf, sub. cbn [h_len h_cap h_off h_arr]. split; [lia|]. destruct W; [left|right]; lia.
  - unfold view, sub, slice in *. cbn [h_len h_cap h_off h_arr].
    rewrite <- firstn_map, <- skipn_map, <- V, skipn_firstn_comm, firstn_firstn, <- skipn_add.
    f_equal. lia.
Qed.
Lemma reslice_sub : forall h s vs i j, holds h s vs -> i <= j <= length vs ->
  reslice s i j h = Ret (sub s i j, h, []).
Proof.
  intros h s vs i j H Hij. pose proof (holds_length _ _ _ H) as Hl. destruct H as [[Lc _] _].
  unfold reslice. destruct (Nat.leb_spec i j); [|lia]. destruct (Nat.leb_spec j (h_cap s)); [|lia]. reflexivity.
Qed.
Lemma sim_reslice : forall n P h s vs i j, holds h s vs -> i <= j <= length vs ->
  sim n P (reslice s i j) h (Ret tt) (fun _ a h' => a = sub s i j /\ h' = h).
Proof.
  intros. cbn [sim]. exists (sub s i j), h, []. split; [eapply reslice_sub; eassumption|].
  split; [apply keeps_refl|]. now split; [constructor|].
Qed.
Lemma sim_from : forall n P h s vs i, holds h s vs -> i <= length vs ->
  sim n P (from s i) h (Ret tt) (fun _ a h' => a = sub s i (length vs) /\ h' = h).
Proof.
  intros n P h s vs i H Hi. unfold from. rewrite <- (holds_length _ _ _ H).
  eapply sim_reslice; [exact H|lia].
Qed.
Lemma sub_low : forall n s i j, low n s -> low n (sub s i j).
Proof. intros n s i j [H|H]; [left; exact H|right; cbn [sub h_cap]; lia]. Qed.

(** reads of [s] are allowed *)
Definition covers (n : nat) (P : nat -> nat -> Prop) (h : heap) (s : hdr) : Prop :=
  forall a i, inside s a i -> P a i \/ n <= a < length h.
Lemma covers_own : forall n P h s, n <= h_arr s < length h -> covers n P h s.
Proof. intros n P h s H a i [-> _]. now right. Qed.
Lemma covers_inside : forall n h s, covers n (inside s) h s.
Proof. intros n h s a i H. now left. Qed.
Lemma covers_keeps : forall n P h h' s, keeps n h h' -> covers n P h s -> covers n P h' s.
Proof. intros n P h h' s [L _] H a i Hi. destruct (H a i Hi); [now left|right; lia]. Qed.
Lemma covers_sub : forall n P h s i j, i <= j <= h_len s -> covers n P h s -> covers n P h (sub s i j).
Proof.
  intros n P h s i j Hij H a k [-> Hk]. apply H. cbn [sub h_arr h_off h_len] in *. split; [reflexivity|lia].
Qed.

Lemma nth_view : forall h s i, i < h_len s -> nth (h_off s + i) (array h (h_arr s)) None = nth i (view h s) None.
Proof.
  intros h s i Hi. unfold view. revert i Hi. generalize (array h (h_arr s)) as l. generalize (h_len s) as k.
  induction (h_off s) as [|o IH]; intros k l i Hi.
  - cbn [skipn Nat.add]. revert l k Hi. induction i as [|i IHi]; intros l [|k] Hi; try lia; destruct l; cbn; auto.
    apply IHi. lia.
  - destruct l as [|x l]; cbn [skipn Nat.add nth].
    + rewrite firstn_nil. now destruct i.
    + now apply IH.
Qed.

Lemma sim_getz : forall n P h s vs i v, holds h s vs -> covers n P h s -> nth_error vs i = Some v ->
  sim n P (getz s i) h (Ret v) (fun b a h' => a = b /\ h' = h).
Proof.
  intros n P h s vs i v H C E. pose proof (holds_length _ _ _ H) as Hl. destruct H as [W V].
  assert (Hi : i < h_len s) by (rewrite <- Hl; apply nth_error_Some; congruence).
  cbn [sim]. exists v, h, (reads (h_arr s) (h_off s + i) 1).
  split.
  - unfold getz, get, mbind. destruct (Nat.ltb_spec i (h_len s)); [|lia]. cbn [bind].
    rewrite (nth_view h s i Hi), V.
    pose proof (nth_error_nth _ _ (@None Z) (map_nth_error Some i vs E)) as G. unfold cell in *. rewrite G. reflexivity.
  - split; [apply keeps_refl|]. split; [|now split].
    constructor; [|constructor]. cbn [fine]. apply C. split; [reflexivity|lia].
Qed.

Lemma reads_fine : forall n P h s, covers n P h s -> forall h' : heap, length h <= length h' ->
  Forall (fine n (length h') P) (reads (h_arr s) (h_off s) (h_len s)).
Proof.
  intros n P h s C h' L. unfold reads. apply Forall_forall. intros x Hx. apply in_map_iff in Hx.
  destruct Hx as (i & <- & Hi). apply in_seq in Hi. cbn [fine].
  destruct (C (h_arr s) i); [split; [reflexivity|lia]|now left|right; lia].
Qed.
Lemma sim_read_all : forall n P h s vs, holds h s vs -> covers n P h s ->
  sim n P (read_all s) h (Ret vs) (fun b a h' => a = map Some b /\ h' = h).
Proof.
  intros n P h s vs [W V] C. cbn [sim].
  exists (view h s), h, (reads (h_arr s) (h_off s) (h_len s)).
  split; [reflexivity|]. split; [apply keeps_refl|]. split; [|now split].
  eapply reads_fine; [exact C|lia].
Qed.

(** ** new arrays and writes *)
Lemma array_app : forall h l a, a < length h -> array (h ++ l) a = array h a.
Proof. intros. unfold array. now rewrite app_nth1. Qed.
Lemma array_new : forall h l, array (h ++ [l]) (length h) = l.
Proof. intros. unfold array. rewrite app_nth2, Nat.sub_diag by lia. reflexivity. Qed.

Definition made (n : nat) (ps : list Z) (r : hdr) (h' : heap) : Prop := holds h' r ps /\ n <= h_arr r < length h'.

Lemma writes_fine : forall n n' P a i k, n <= a < n' -> Forall (fine n n' P) (writes a i k).
Proof.
  intros. unfold writes. apply Forall_forall. intros x Hx. apply in_map_iff in Hx.
  destruct Hx as (j & <- & _). exact H.
Qed.

Lemma sim_new_array : forall n P h vs k, n <= length h ->
  sim n P (new_array (map Some vs ++ repeat None k)) h (Ret vs)
    (fun ps r h' => h_arr r = length h /\ h_off r = 0 /\ h' = h ++ [map Some vs ++ repeat None k] /\
                    (k = 0 -> made n ps r h')).
Proof.
  intros n P h vs k Hn. cbn [sim]. eexists _, _, _. split; [reflexivity|].
  split; [|split; [|split; [reflexivity|split; [reflexivity|split; [reflexivity|]]]]].
  - split; [rewrite app_length; lia|]. intros a Ha. apply array_app. lia.
  - apply writes_fine. rewrite app_length. cbn [length]. lia.
  - intros ->. cbn [repeat]. rewrite app_nil_r. split; [|cbn [h_arr]; rewrite app_length; cbn [length]; lia].
    split.
    + unfold wf. cbn [h_len h_cap h_off h_arr]. rewrite array_new. split; [lia|right; lia].
    + unfold view. cbn [h_len h_cap h_off h_arr skipn]. rewrite array_new. apply firstn_all.
Qed.

Lemma overwrite_length : forall l i vs, i + length vs <= length l -> length (overwrite l i vs) = length l.
Proof. intros. unfold overwrite. rewrite !app_length, firstn_length, skipn_length. lia. Qed.
Lemma update_length : forall h a i vs, a < length h -> length (update h a i vs) = length h.
Proof. intros. unfold update. rewrite app_length, firstn_length. cbn [length]. rewrite skipn_length. lia. Qed.
Lemma array_update_same : forall h a i vs, a < length h -> array (update h a i vs) a = overwrite (array h a) i vs.
Proof.
  intros h a i vs H. unfold update. unfold array at 1. rewrite app_nth2; rewrite firstn_length; [|lia].
  replace (a - Nat.min a (length h)) with 0 by lia. reflexivity.
Qed.
Lemma array_update_other : forall h a i vs b, a < length h -> a <> b -> array (update h a i vs) b = array h b.
Proof.
  intros h a i vs b H Hb. unfold update, array. revert a b H Hb.
  induction h as [|x h IH]; intros a b H Hb; [cbn in H; lia|].
  destruct a as [|a]; destruct b as [|b]; try lia; cbn [firstn skipn app nth]; try reflexivity.
  apply IH; cbn [length] in H; lia.
Qed.

Lemma sim_write : forall n P h a i vs, n <= a < length h ->
  sim n P (write a i vs) h (Ret tt) (fun _ _ h' => h' = update h a i vs).
Proof.
  intros n P h a i vs Ha. cbn [sim]. eexists _, _, _. split; [reflexivity|].
  split; [|split; [|reflexivity]].
  - split; [rewrite update_length; lia|]. intros b Hb. apply array_update_other; lia.
  - apply writes_fine. rewrite update_length; lia.
Qed.

Lemma overwrite_view : forall (l : list cell) o k vs, o + k + length vs <= length l ->
  firstn (k + length vs) (skipn o (overwrite l (o + k) vs)) = firstn k (skipn o l) ++ vs.
Proof.
  intros l o k vs H. unfold overwrite.
  rewrite skipn_app, skipn_firstn_comm, firstn_length.
  replace (o + k - o) with k by lia. replace (o - Nat.min (o + k) (length l)) with 0 by lia.
  cbn [skipn]. rewrite firstn_app, firstn_firstn, firstn_length, skipn_length.
  replace (Nat.min (k + length vs) k) with k by lia.
  replace (k + length vs - Nat.min k (length l - o)) with (length vs) by lia.
  rewrite firstn_app, Nat.sub_diag, firstn_all. cbn [firstn]. now rewrite app_nil_r.
Qed.

Section WithGrow.
Variable grow : nat -> nat -> nat.

(** append keeps everything the first argument does not own, and the second argument's values follow
    the first's; the result is in the array of the first argument or in a new one *)
Definition grown (n : nat) (s : hdr) (h : heap) (ps : list Z) (r : hdr) (h' : heap) : Prop :=
  made n ps r h' /\ (h_arr r = h_arr s \/ length h <= h_arr r) /\
  forall a, a <> h_arr s -> a < length h -> array h' a = array h a.

Lemma sim_append : forall n P h s vs ws, made n vs s h ->
  sim n P (append grow s (map Some ws)) h (Ret (vs ++ ws)) (grown n s h).
Proof.
  intros n P h s vs ws [H Ha]. pose proof (holds_length _ _ _ H) as Hl.
  unfold append. rewrite map_length. cbv zeta. destruct (Nat.leb_spec (h_len s + length ws) (h_cap s)) as [C|C].
  - eapply sim_step; [now apply sim_write|]. intros _ h1 _ ->. apply sim_ret.
    destruct H as [[Lc W] V]. split; [split|split; [now left|]].
    + split.
      * unfold wf. cbn [h_len h_cap h_off h_arr]. split; [exact C|].
        destruct W as [W|W]; [now left|right]. rewrite array_update_same by lia.
        rewrite overwrite_length; rewrite ?map_length; lia.
      * unfold view. cbn [h_len h_cap h_off h_arr]. rewrite array_update_same by lia. rewrite map_app.
        destruct W as [W|W].
        -- assert (E1 : h_len s = 0) by lia. assert (E2 : length ws = 0) by lia.
           rewrite E1, E2. cbn [Nat.add firstn].
           destruct ws; [|discriminate]. destruct vs; [reflexivity|cbn in Hl; lia].
        -- rewrite <- (map_length Some ws). rewrite overwrite_view by (rewrite map_length; lia).
           unfold view in V. now rewrite V.
    + cbn [h_arr]. rewrite update_length; lia.
    + intros a Ne La. apply array_update_other; [lia|congruence].
  - set (c := Nat.max _ _).
    eapply sim_step; [eapply sim_read_all; [exact H|now apply covers_own]|].
    intros old h1 _ [-> ->]. rewrite app_assoc, <- map_app.
    eapply sim_step; [apply sim_new_array; lia|]. intros r h1 K1 (Er & Or & -> & _).
    apply sim_ret. rewrite Er.
    assert (Ln : length (vs ++ ws) = h_len s + length ws) by (rewrite app_length; lia).
    split; [split|split; [right; cbn [h_arr]; lia|intros a Ne La; now apply array_app]].
    + split.
      * unfold wf. cbn [h_len h_cap h_off h_arr]. split; [lia|right].
        rewrite array_new, app_length, map_length, repeat_length. lia.
      * unfold view. cbn [h_len h_cap h_off h_arr skipn]. rewrite array_new.
        rewrite <- Ln, <- (map_length Some (vs ++ ws)), firstn_app, Nat.sub_diag, firstn_all. cbn [firstn].
        apply app_nil_r.
    + cbn [h_arr]; rewrite app_length; cbn [length]; lia.
Qed.
Lemma sim_append_keeping : forall n P h s t vs ws, made n vs s h -> holds h t ws -> covers n P h t ->
  sim n P (append_slice grow s t) h (Ret (vs ++ ws)) (grown n s h).
Proof.
  intros n P h s t vs ws H Ht C. unfold append_slice.
  eapply sim_step; [eapply sim_read_all; eassumption|]. intros a h1 _ [-> ->]. now apply sim_append.
Qed.
Lemma sim_append_slice : forall n P h s t vs ws, made n vs s h -> holds h t ws -> covers n P h t ->
  sim n P (append_slice grow s t) h (Ret (vs ++ ws)) (made n).
Proof.
  intros n P h s t vs ws H Ht C. eapply sim_weaken; [eapply sim_append_keeping; eassumption|apply le_n|auto|].
  intros b a h' _ [Hm _]. exact Hm.
Qed.
Lemma grown_other : forall n s h ps r h' t ws, grown n s h ps r h' -> holds h t ws ->
  h_arr t <> h_arr s -> h_arr t < length h -> holds h' t ws.
Proof.
  intros n s h ps r h' t ws (_ & _ & K) [W V] Ne L. unfold holds, wf, view in *. now rewrite (K _ Ne L).
Qed.

(** ** the products *)
Lemma sim_mul_from : forall n P h s k i acc vs, holds h s vs -> covers n P h s -> i + k = length vs ->
  sim n P (mul_from acc s i k) h (Ret (fold_left Z.mul (skipn i vs) acc)) (fun b a h' => a = b /\ h' = h).
Proof.
  induction k as [|k IH]; intros i acc vs H C Hk; cbn [mul_from].
  - rewrite skipn_all2 by lia. cbn [fold_left]. now apply sim_ret.
  - destruct (nth_error vs i) as [v|] eqn:E; [|apply nth_error_None in E; lia].
    eapply sim_step; [eapply sim_getz; eassumption|]. intros a h1 _ [-> ->].
    replace (skipn i vs) with (v :: skipn (S i) vs).
    + cbn [fold_left]. apply IH; auto; lia.
    + clear - E. revert vs E. induction i as [|i IHi]; intros [|x vs] E; try discriminate.
      * cbn in *. congruence.
      * cbn [nth_error] in E. cbn [skipn]. apply IHi in E. cbn [skipn] in E. exact E.
Qed.
Lemma sim_product : forall f n P h s vs, holds h s vs -> covers n P h s -> length vs <= f ->
  sim n P (set_product_sl f s) h (Ret (product vs)) (fun b a h' => a = b /\ h' = h).
Proof.
  induction f as [|f IH]; intros n P h s vs H C Hf; pose proof (holds_length _ _ _ H) as Hl;
    cbn [set_product_sl]; cbv zeta; destruct (Nat.leb_spec (h_len s) 2) as [Hs|Hs]; try lia.
  - replace (product vs) with (fold_left Z.mul (skipn 0 vs) 1%Z) by apply SetProduct_spec.
    eapply sim_mul_from; [exact H|exact C|lia].
  - replace (product vs) with (fold_left Z.mul (skipn 0 vs) 1%Z) by apply SetProduct_spec.
    eapply sim_mul_from; [exact H|exact C|lia].
  - rewrite <- Hl in *. set (k := length vs) in *.
    eapply sim_step; [eapply sim_reslice; [exact H|lia]|]. intros a h1 _ [-> ->].
    eapply sim_step; [eapply IH; [eapply sub_holds; [exact H|lia]|apply covers_sub; [lia|exact C]|]|].
    { rewrite slice_length; lia. }
    intros a h1 _ [-> ->].
    eapply sim_step; [eapply sim_from; [exact H|lia]|]. intros a h1 _ [-> ->].
    eapply sim_step; [eapply IH; [eapply sub_holds; [exact H|lia]|apply covers_sub; [lia|exact C]|]|].
    { rewrite slice_length; lia. }
    intros a h1 _ [-> ->]. apply sim_ret. split; [|reflexivity].
    rewrite <- product_app, <- slice_app by lia. now rewrite slice_full.
Qed.
Lemma sim_Product : forall n P h s vs, holds h s vs -> covers n P h s ->
  sim n P (SetProductRecursiveFast_sl s) h (Ret (product vs)) (fun b a h' => a = b /\ h' = h).
Proof. intros n P h s vs H C. apply sim_product; auto. rewrite (holds_length _ _ _ H). lia. Qed.

(** ** exponentiations *)
Lemma sim_exps : forall n P h base N es, n <= length h ->
  sim n P (exps base N es) h (multi_exp base N es) (made n).
Proof.
  intros n P h base N es Hn. unfold exps.
  destruct (multi_exp base N es) as [vs| |] eqn:E; try reflexivity.
  eapply sim_step; [apply sim_lift|]. intros a h1 _ [-> ->].
  rewrite <- (app_nil_r (map Some vs)). change (@nil cell) with (repeat (@None Z) 0).
  eapply sim_weaken; [exact (sim_new_array n P h vs 0 Hn)|lia|auto|].
  intros b a h' _ (_ & _ & _ & G). now apply G.
Qed.

Ltac step_getz := eapply sim_step; [eapply sim_getz; [eassumption|eassumption|reflexivity]|];
  let E := fresh in let E' := fresh in intros ? ? _ [E E']; subst.

Lemma sim_small : forall n P h s vs base N, holds h s vs -> covers n P h s -> n <= length h ->
  sim n P (handleSmallSet_sl grow base N s) h (handleSmallSet base N vs) (made n).
Proof.
  intros n P h s vs base N H C Hn. pose proof (holds_length _ _ _ H) as Hl. unfold handleSmallSet_sl.
  rewrite <- Hl. destruct vs as [|x0 [|x1 [|x2 [|x3 [|x4 vs]]]]]; cbn [length handleSmallSet].
  - reflexivity.
  - eapply (sim_step _ unit _ _ _ _ (make 1 1) _ h tt _
      (fun _ a h' => a = Hdr (length h) 0 1 1 /\ h' = h ++ [[None]])).
    + cbn [sim]. eexists _, _, _. split; [reflexivity|]. split; [|now split; [constructor|]].
      split; [rewrite app_length; lia|]. intros a Ha. apply array_app. lia.
    + intros a h1 _ [-> ->]. unfold put. cbn [h_len h_arr h_off Nat.ltb Nat.leb Nat.add].
      eapply sim_step; [apply sim_write; rewrite app_length; cbn [length]; lia|].
      intros _ h1 _ ->. apply sim_ret.
      assert (L : length h < length (h ++ [[None]])) by (rewrite app_length; cbn [length]; lia).
      split; [split|].
      * unfold wf. cbn [h_len h_cap h_off h_arr]. split; [lia|right].
        rewrite array_update_same, array_new by exact L. cbn. lia.
      * unfold view. cbn [h_len h_cap h_off h_arr skipn]. rewrite array_update_same, array_new by exact L. reflexivity.
      * cbn [h_arr]. rewrite update_length by exact L. lia.
  - do 2 step_getz. now apply sim_exps.
  - do 6 step_getz. eapply sim_bind; [now apply sim_exps|]. intros b a h1 K Hm.
    eapply sim_weaken; [exact (sim_append n P h1 a b [_] Hm)|apply le_n|auto|]. now intros ? ? ? _ [? _].
  - do 8 step_getz. rewrite (Z.mul_comm x2 x3), (Z.mul_comm x3 x2). now apply sim_exps.
  - reflexivity.
Qed.

(** ** the recursive functions *)
Ltac cut_step H lem := eapply sim_step; [eapply lem; [exact H|lia]|];
  let E := fresh in let E' := fresh in intros ? ? _ [E E']; subst.
Ltac prod_step H C := eapply sim_step;
  [eapply sim_Product; [eapply sub_holds; [exact H|lia]|apply covers_sub; [lia|exact C]]|];
  let E := fresh in let E' := fresh in intros ? ? _ [E E']; subst.

Definition base_exponents (r : Z) (vs : list Z) : list Z :=
  let n := length vs in
  let L := product (slice vs (n / 2) n) in
  let R := product (slice vs 0 (n / 2)) in
  [(L * r) * product (slice vs (n / 4) (n / 2)); (L * r) * product (slice vs 0 (n / 4));
   (R * r) * product (slice vs (n * 3 / 4) n); (R * r) * product (slice vs (n / 2) (n * 3 / 4))]%Z.

Lemma sim_four_bases : forall n P h s vs base r N, holds h s vs -> covers n P h s -> n <= length h ->
  sim n P (four_bases base r N s) h (multi_exp base N (base_exponents r vs)) (made n).
Proof.
  intros n P h s vs base r N H C Hn. pose proof (holds_length _ _ _ H) as Hl.
  unfold four_bases, base_exponents. cbv zeta. rewrite <- Hl. set (k := length vs) in *.
  cut_step H sim_from. prod_step H C.
  cut_step H sim_reslice. prod_step H C.
  cut_step H sim_reslice. prod_step H C.
  cut_step H sim_reslice. prod_step H C.
  cut_step H sim_from. prod_step H C.
  cut_step H sim_reslice. prod_step H C.
  now apply sim_exps.
Qed.

(** what is proved of a function from slices to slices *)
Definition good (call : Z -> hdr -> M hdr) (callL : Z -> list Z -> outcome (list Z)) : Prop :=
  forall b h s vs, holds h s vs -> low (length h) s ->
    sim (length h) (inside s) (call b s) h (callL b vs) (made (length h)).

Lemma good_at : forall call callL, good call callL -> forall n P h s vs b,
  n <= length h -> holds h s vs -> low n s -> covers n P h s ->
  sim n P (call b s) h (callL b vs) (fun ps r h' => made (length h) ps r h' /\ keeps (length h) h h').
Proof.
  intros call callL G n P h s vs b Hn H Lo C.
  eapply sim_weaken; [apply G; [exact H|]|exact Hn| |].
  - destruct Lo; [left; lia|now right].
  - intros a i Hi. exact (C a i Hi).
  - intros ps r h' K Hm. now split.
Qed.

Lemma made_keeps : forall n h h' m ps r, keeps m h h' -> length h <= m -> made n ps r h -> made n ps r h'.
Proof.
  intros n h h' m ps r K Hm [H L]. split.
  - eapply holds_keeps; [exact K|left; lia|exact H].
  - destruct K. lia.
Qed.
Lemma made_le : forall n m h ps r, m <= n -> made n ps r h -> made m ps r h.
Proof. intros n m h ps r Hm [H L]. split; [exact H|lia]. Qed.

Ltac base_step := eapply sim_step; [eapply sim_getz; [eassumption|apply covers_own; lia|reflexivity]|];
  let E := fresh in let E' := fresh in intros ? ? _ [E E']; subst.

Lemma sim_four_calls : forall call callL, good call callL -> forall n P h s vs bases b0 b1 b2 b3,
  holds h s vs -> low n s -> covers n P h s -> n <= length h -> made n [b0; b1; b2; b3] bases h ->
  sim n P (four_calls grow call bases s) h
    (let k := length vs in
     do p0 <- callL b0 (slice vs 0 (k / 4));
     do p1 <- callL b1 (slice vs (k / 4) (k / 2));
     do p2 <- callL b2 (slice vs (k / 2) (k * 3 / 4));
     do p3 <- callL b3 (slice vs (k * 3 / 4) k);
     Ret (p0 ++ p1 ++ p2 ++ p3)) (made n).
Proof.
  intros call callL G n P h s vs bases b0 b1 b2 b3 H Lo C Hn [Hb Lb].
  pose proof (holds_length _ _ _ H) as Hl.
  unfold four_calls. cbv zeta. rewrite <- Hl. set (k := length vs) in *.
  base_step. cut_step H sim_reslice.
  eapply sim_bind.
  { eapply good_at; [exact G|exact Hn|eapply sub_holds; [exact H|lia]|now apply sub_low|apply covers_sub; [lia|exact C]]. }
  intros p0 r0 h1 K1 [M0 K1'].
  assert (H1 : holds h1 s vs) by (eapply holds_keeps; [exact K1|exact Lo|exact H]).
  assert (C1 : covers n P h1 s) by (eapply covers_keeps; [exact K1|exact C]).
  assert (Hb1 : holds h1 bases [b0; b1; b2; b3]) by (eapply holds_keeps; [exact K1'|left; lia|exact Hb]).
  assert (L1 : length h <= length h1) by apply K1.
  base_step. cut_step H1 sim_reslice.
  eapply sim_bind.
  { eapply good_at; [exact G| |eapply sub_holds; [exact H1|lia]|now apply sub_low|apply covers_sub; [lia|exact C1]]. lia. }
  intros p1 r1 h2 K2 [M1 K2'].
  assert (H2 : holds h2 s vs) by (eapply holds_keeps; [exact K2|exact Lo|exact H1]).
  assert (C2 : covers n P h2 s) by (eapply covers_keeps; [exact K2|exact C1]).
  assert (Hb2 : holds h2 bases [b0; b1; b2; b3]) by (eapply holds_keeps; [exact K2'|left; lia|exact Hb1]).
  assert (L2 : length h1 <= length h2) by apply K2.
  assert (M0' : made (length h) p0 r0 h2) by (eapply made_keeps; [exact K2'|lia|exact M0]).
  eapply sim_step.
  { eapply (sim_weaken _ _ (length h)).
    - eapply (sim_append_slice (length h) P); [exact M0'|apply M1|].
      apply covers_own. destruct M1. lia.
    - exact Hn.
    - intros; now left.
    - intros b a h' K Hm. exact (conj K Hm). }
  intros q1 h3 K3 [K3' Q1].
  assert (H3 : holds h3 s vs) by (eapply holds_keeps; [exact K3|exact Lo|exact H2]).
  assert (C3 : covers n P h3 s) by (eapply covers_keeps; [exact K3|exact C2]).
  assert (Hb3 : holds h3 bases [b0; b1; b2; b3]) by (eapply holds_keeps; [exact K3'|left; lia|exact Hb2]).
  assert (L3 : length h2 <= length h3) by apply K3.
  base_step. cut_step H3 sim_reslice.
  eapply sim_bind.
  { eapply good_at; [exact G| |eapply sub_holds; [exact H3|lia]|now apply sub_low|apply covers_sub; [lia|exact C3]]. lia. }
  intros p2 r2 h4 K4 [M2 K4'].
  assert (H4 : holds h4 s vs) by (eapply holds_keeps; [exact K4|exact Lo|exact H3]).
  assert (C4 : covers n P h4 s) by (eapply covers_keeps; [exact K4|exact C3]).
  assert (Hb4 : holds h4 bases [b0; b1; b2; b3]) by (eapply holds_keeps; [exact K4'|left; lia|exact Hb3]).
  assert (L4 : length h3 <= length h4) by apply K4.
  assert (Q1' : made (length h) (p0 ++ p1) q1 h4) by (eapply made_keeps; [exact K4'|lia|exact Q1]).
  eapply sim_step.
  { eapply (sim_weaken _ _ (length h)).
    - eapply (sim_append_slice (length h) P); [exact Q1'|apply M2|].
      apply covers_own. destruct M2. lia.
    - exact Hn.
    - intros; now left.
    - intros b a h' K Hm. exact (conj K Hm). }
  intros q2 h5 K5 [K5' Q2].
  assert (H5 : holds h5 s vs) by (eapply holds_keeps; [exact K5|exact Lo|exact H4]).
  assert (C5 : covers n P h5 s) by (eapply covers_keeps; [exact K5|exact C4]).
  assert (Hb5 : holds h5 bases [b0; b1; b2; b3]) by (eapply holds_keeps; [exact K5'|left; lia|exact Hb4]).
  assert (L5 : length h4 <= length h5) by apply K5.
  base_step. cut_step H5 sim_from.
  eapply sim_bind.
  { eapply good_at; [exact G| |eapply sub_holds; [exact H5|lia]|now apply sub_low|apply covers_sub; [lia|exact C5]]. lia. }
  intros p3 r3 h6 K6 [M3 K6'].
  assert (L6 : length h5 <= length h6) by apply K6.
  assert (Q2' : made (length h) ((p0 ++ p1) ++ p2) q2 h6) by (eapply made_keeps; [exact K6'|lia|exact Q2]).
  replace (p0 ++ p1 ++ p2 ++ p3) with (((p0 ++ p1) ++ p2) ++ p3) by now rewrite <- !app_assoc.
  eapply sim_append_slice; [eapply made_le; [|exact Q2']; lia|apply M3|].
  apply covers_own. destruct M3. lia.
Qed.


Lemma multi_exp_length : forall base N es vs, multi_exp base N es = Ret vs -> length vs = length es.
Proof.
  intros base N es. unfold multi_exp. induction es as [|e es IH]; intros vs; cbn [map_outcome].
  - now intros [= <-].
  - destruct (deref (big_exp base e N)); cbn [bind]; try discriminate.
    destruct (map_outcome _ es) as [l| |]; cbn [bind]; try discriminate. intros [= <-]. cbn. now rewrite IH.
Qed.

Lemma good_membership : forall f N,
  good (prove_membership_sl grow f N) (fun b vs => prove_membership f b N vs).
Proof.
  induction f as [|f IH]; intros N base h s vs H Lo; pose proof (holds_length _ _ _ H) as Hl;
    cbn [prove_membership_sl prove_membership]; cbv zeta; rewrite <- Hl; destruct (Nat.leb_spec (length vs) 4) as [S4|S4].
  - now apply sim_small; [|apply covers_inside|].
  - reflexivity.
  - now apply sim_small; [|apply covers_inside|].
  - rewrite !go_slice_ret by lia. cbn [bind]. rewrite !SetProductRecursiveFast_spec. cbn [bind].
    set (es := [_; _; _; _]).
    assert (E : es = base_exponents 1 vs) by (unfold es, base_exponents; rewrite !Z.mul_1_r; reflexivity).
    rewrite E. clear E es.
    eapply sim_bind with (Q := fun bs a h' => made (length h) bs a h' /\ length bs = 4).
    + pose proof (sim_four_bases (length h) (inside s) h s vs base 1 N H (covers_inside _ _ _) (le_n _)) as G.
      unfold sim in *. destruct (multi_exp base N (base_exponents 1 vs)) as [bs| |] eqn:E; try exact G.
      destruct G as (a & h' & l & E1 & E2 & E3 & E4). exists a, h', l. apply multi_exp_length in E. tauto.
    + intros bs a h1 K [Hm L4]. destruct bs as [|b0 [|b1 [|b2 [|b3 [|b4 bs]]]]]; try discriminate.
      destruct K as [L1 K1]. assert (K : keeps (length h) h h1) by now split.
      eapply (sim_four_calls _ _ (IH N)); [eapply holds_keeps; eassumption|exact Lo|apply covers_inside|exact L1|exact Hm].
Qed.
Lemma good_ProveMembership : forall N, good (ProveMembership_sl grow N) (fun b vs => ProveMembership b N vs).
Proof.
  intros N b h s vs H Lo. unfold ProveMembership_sl, ProveMembership. rewrite <- (holds_length _ _ _ H).
  exact (good_membership (length vs) N b h s vs H Lo).
Qed.
Lemma good_randomizer : forall N r,
  good (fun b => SingleThreadWithRandomizer_sl grow N b r)
       (fun b vs => ProveMembershipSingleThreadWithRandomizer b r N vs).
Proof.
  intros N r base h s vs H Lo. pose proof (holds_length _ _ _ H) as Hl.
  unfold SingleThreadWithRandomizer_sl, ProveMembershipSingleThreadWithRandomizer. cbv zeta.
  rewrite !go_slice_ret by lia. cbn [bind]. rewrite !SetProductRecursiveFast_spec. cbn [bind].
  eapply sim_bind with (Q := fun bs a h' => made (length h) bs a h' /\ length bs = 4).
  - pose proof (sim_four_bases (length h) (inside s) h s vs base r N H (covers_inside _ _ _) (le_n _)) as G.
    unfold base_exponents in G. cbv zeta in G.
    unfold sim in *. destruct (multi_exp base N _) as [bs| |] eqn:E; try exact G.
    destruct G as (a & h' & l & E1 & E2 & E3 & E4). exists a, h', l. apply multi_exp_length in E. tauto.
  - intros bs a h1 K [Hm L4]. destruct bs as [|b0 [|b1 [|b2 [|b3 [|b4 bs]]]]]; try discriminate.
    destruct K as [L1 K1]. assert (K : keeps (length h) h h1) by now split.
    eapply (sim_four_calls _ _ (good_ProveMembership N)); [eapply holds_keeps; eassumption|exact Lo|apply covers_inside|exact L1|exact Hm].
Qed.

(** ** goroutines *)
Lemma no_conflict : forall n1 n2 n3 (P1 P2 : nat -> nat -> Prop) l1 l2,
  Forall (fine n1 n2 P1) l1 -> Forall (fine n2 n3 P2) l2 -> n1 <= n2 ->
  (forall a i, P1 a i -> a < n2) -> (forall a i, P2 a i -> a < n1) -> conflict l1 l2 = false.
Proof.
  intros n1 n2 n3 P1 P2 l1 l2 F1 F2 Hn HP1 HP2. unfold conflict.
  destruct (existsb _ l1) eqn:E; [|reflexivity]. exfalso.
  apply existsb_exists in E. destruct E as (x & Hx & E). apply existsb_exists in E. destruct E as (y & Hy & E).
  eapply Forall_forall in F1; [|exact Hx]. eapply Forall_forall in F2; [|exact Hy].
  destruct x as [a i|a i|]; destruct y as [b j|b j|]; cbn [clash fine] in *; try discriminate;
    apply andb_true_iff in E; destruct E as [Ea Ei]; apply Nat.eqb_eq in Ea; subst b.
  - destruct F1 as [F1|F1]; [apply HP1 in F1|]; lia.
  - destruct F2 as [F2|F2]; [apply HP2 in F2|]; lia.
  - lia.
Qed.

Lemma sim_par : forall A B C D (P1 P2 : nat -> nat -> Prop) (f : M A) (g : M B) h (b1 : C) (b2 : D) Q1 (Q2 : heap -> D -> B -> heap -> Prop),
  (forall a i, P1 a i -> a < length h) -> (forall a i, P2 a i -> a < length h) ->
  sim (length h) P1 f h (Ret b1) Q1 ->
  (forall h1, keeps (length h) h h1 -> sim (length h1) P2 g h1 (Ret b2) (Q2 h1)) ->
  sim (length h) (fun a i => P1 a i \/ P2 a i) (par f g) h (Ret (b1, b2))
    (fun _ r h2 => exists h1, Q1 b1 (fst r) h1 /\ Q2 h1 b2 (snd r) h2 /\
                     keeps (length h) h h1 /\ keeps (length h1) h1 h2).
Proof.
  intros A B C D P1 P2 f g h b1 b2 Q1 Q2 HP1 HP2 Hf Hg. cbn [sim] in *.
  destruct Hf as (a & h1 & l1 & E1 & K1 & F1 & G1).
  destruct (Hg h1 K1) as (b & h2 & l2 & E2 & K2 & F2 & G2).
  assert (L1 : length h <= length h1) by apply K1. assert (L2 : length h1 <= length h2) by apply K2.
  exists (a, b), h2, (l1 ++ l2).
  split.
  - unfold par. rewrite E1. cbn [bind]. rewrite E2. cbn [bind].
    rewrite (no_conflict _ _ _ _ _ _ _ F1 F2 L1) by (intros; (eapply Nat.lt_le_trans; [eapply HP1; eassumption|exact L1]) || (eapply HP2; eassumption)).
    now rewrite app_nil_r.
  - split; [eapply keeps_trans; [exact K1|now apply (keeps_le (length h) (length h1))]|].
    split; [|exists h1; auto].
    apply Forall_app. split.
    + eapply fine_mono; [apply le_n|exact L2| |exact F1]. intros; now left; left.
    + eapply fine_mono; [exact L1|apply le_n| |exact F2]. intros; now left; right.
Qed.

Lemma inside_low : forall n s vs h, holds h s vs -> low n s -> forall a i, inside s a i -> a < n.
Proof.
  intros n s vs h [[L _] _] [H|H] a i [-> Hi]; [exact H|lia].
Qed.

(** the values: every element's proof, in order *)
Definition goodw (N : Z) (call : Z -> hdr -> M hdr) : Prop :=
  forall b h s vs, holds h s vs -> low (length h) s -> nonneg vs -> 1 <= length vs -> base_ok b N vs ->
    sim (length h) (inside s) (call b s) h (Ret (wit b N 1 vs)) (made (length h)).

Lemma goodw_small : forall N, (0 < N)%Z -> forall b h s vs, holds h s vs -> low (length h) s -> nonneg vs ->
  1 <= length vs <= 4 -> base_ok b N vs ->
  sim (length h) (inside s) (handleSmallSet_sl grow b N s) h (Ret (wit b N 1 vs)) (made (length h)).
Proof.
  intros N HN b h s vs H Lo Hv [L1 L4] Hb.
  rewrite <- (handleSmallSet_spec b N vs) by (auto; lia).
  exact (sim_small _ _ h s vs b N H (covers_inside _ _ _) (le_n _)).
Qed.
Lemma goodw_membership : forall N, (0 < N)%Z -> goodw N (ProveMembership_sl grow N).
Proof.
  intros N HN b h s vs H Lo Hv L1 Hb.
  rewrite <- (ProveMembership_wit b N vs) by first [assumption|intros ->; cbn in L1; lia].
  now apply (good_ProveMembership N).
Qed.

Lemma sim_eq : forall A B n P (f : M A) h (o o' : outcome B) Q, o = o' -> sim n P f h o Q -> sim n P f h o' Q.
Proof. now intros; subst. Qed.

Lemma goodw_chan : forall N, (0 < N)%Z -> forall f limit,
  forall b h s vs, length vs <= f -> holds h s vs -> low (length h) s -> nonneg vs -> 1 <= length vs -> base_ok b N vs ->
    sim (length h) (inside s) (with_chan_sl grow f N limit b s) h (Ret (wit b N 1 vs)) (made (length h)).
Proof.
  intros N HN. induction f as [|f IH]; intros limit b h s vs Hf H Lo Hv L1 Hb; [lia|].
  pose proof (holds_length _ _ _ H) as Hl.
  cbn [with_chan_sl]. destruct (limit <=? 0)%Z; [now apply goodw_membership|]. cbv zeta.
  destruct (Nat.leb_spec (h_len s) 4) as [S4|S4]; [apply goodw_small; auto; lia|].
  rewrite <- Hl in *. set (k := length vs) in *.
  assert (C : covers (length h) (inside s) h s) by apply covers_inside.
  assert (PN : forall i j, (0 <= product (slice vs i j))%Z) by (intros; apply product_nonneg, slice_Forall; exact Hv).
  cut_step H sim_from. prod_step H C. cut_step H sim_reslice. prod_step H C.
  set (e1 := product (slice vs (k / 2) k)) in *. set (e2 := product (slice vs 0 (k / 2))) in *.
  eapply sim_step with (b := [(b ^ e1 mod N)%Z; (b ^ e2 mod N)%Z]).
  { eapply sim_eq; [|now apply sim_exps]. rewrite multi_exp_spec; [reflexivity|exact HN|].
    repeat constructor; apply PN. }
  intros bases h1 K1 [Hb1 Lb1].
  assert (H1 : holds h1 s vs) by (eapply holds_keeps; eassumption).
  assert (L : length h <= length h1) by apply K1.
  base_step. cut_step H1 sim_reslice. base_step. cut_step H1 sim_from.
  assert (S1 : forall h2, keeps (length h1) h1 h2 -> forall i j, i <= j <= k -> holds h2 (sub s i j) (slice vs i j)).
  { intros h2 K i j Hij. eapply holds_keeps; [exact K|apply sub_low|apply sub_holds; [exact H1|exact Hij]].
    destruct Lo; [left; lia|now right]. }
  assert (Lo1 : forall i j m, length h <= m -> low m (sub s i j)).
  { intros i j m Hm. apply sub_low. destruct Lo; [left; lia|now right]. }
  eapply sim_step.
  - eapply sim_weaken.
    + eapply (sim_par _ _ _ _ (inside (sub s 0 (k / 2))) (inside (sub s (k / 2) k)) _ _ _ _ _ _ (fun h2 => made (length h2))).
      * eapply inside_low; [apply (S1 h1); [apply keeps_refl|lia]|now apply Lo1].
      * eapply inside_low; [apply (S1 h1); [apply keeps_refl|lia]|now apply Lo1].
      * apply (IH (limit - 1)%Z _ h1 _ (slice vs 0 (k / 2))); [rewrite slice_length; lia|apply S1; [apply keeps_refl|lia]|now apply Lo1| |rewrite slice_length; lia|].
        -- now apply slice_Forall.
        -- right. apply Z.mod_pos_bound, HN.
      * intros h2 K2.
        apply (IH (limit - 1)%Z _ h2 _ (slice vs (k / 2) k)); [rewrite slice_length; lia|apply S1; [exact K2|lia]| | |rewrite slice_length; lia|].
        -- apply Lo1. destruct K2. lia.
        -- now apply slice_Forall.
        -- right. apply Z.mod_pos_bound, HN.
    + exact L.
    + intros a i [Hi|Hi]; left; destruct Hi as [-> Hi]; cbn [sub h_arr h_off h_len] in *; split; [reflexivity|lia|reflexivity|lia].
    + intros x a h' _ Hq. exact Hq.
  - intros [r1 r2] h3 K3 (h2 & M1 & M2 & K12 & K23). cbn [fst snd] in *.
    eapply sim_eq; [|eapply sim_append_slice;
      [eapply made_le; [exact L|]; eapply made_keeps; [exact K23|apply le_n|exact M1]
      |apply M2|apply covers_own; destruct M2, K12; lia]].
    f_equal. rewrite !wit_base by (auto using slice_Forall; try lia; apply PN).
    rewrite !Z.mul_1_r. transitivity (wit b N 1 (slice vs 0 k)); [|unfold k; now rewrite slice_full].
    rewrite (slice_app _ vs 0 (k / 2) k) by lia. rewrite wit_app. unfold e1, e2.
    f_equal; f_equal; ring.
Qed.
Lemma goodw_Chan : forall N limit, (0 < N)%Z -> goodw N (WithChan_sl grow N limit).
Proof.
  intros N limit HN b h s vs H Lo Hv L1 Hb. unfold WithChan_sl.
  apply goodw_chan; auto. rewrite (holds_length _ _ _ H). lia.
Qed.

Lemma made_own : forall n h ps r P, made n ps r h -> covers n P h r.
Proof. intros n h ps r P [_ H]. now apply covers_own. Qed.

Lemma sim_four_goroutines : forall N limit, (0 < N)%Z -> forall n h s vs bases b0 b1 b2 b3,
  holds h s vs -> low n s -> nonneg vs -> 4 <= length vs -> n <= length h ->
  made n [b0; b1; b2; b3] bases h ->
  (0 <= b0 < N)%Z -> (0 <= b1 < N)%Z -> (0 <= b2 < N)%Z -> (0 <= b3 < N)%Z ->
  sim n (inside s) (four_goroutines grow N limit bases s) h
    (let k := length vs in
     Ret (wit b0 N 1 (slice vs 0 (k / 4)) ++ wit b1 N 1 (slice vs (k / 4) (k / 2)) ++
          wit b2 N 1 (slice vs (k / 2) (k * 3 / 4)) ++ wit b3 N 1 (slice vs (k * 3 / 4) k))) (made n).
Proof.
  intros N limit HN n h s vs bases b0 b1 b2 b3 H Lo Hv L4 Hn [Hb Lb] R0 R1 R2 R3.
  pose proof (holds_length _ _ _ H) as Hl.
  unfold four_goroutines. cbv zeta. rewrite <- Hl. set (k := length vs) in *.
  base_step. cut_step H sim_reslice. base_step. cut_step H sim_reslice.
  base_step. cut_step H sim_reslice. base_step. cut_step H sim_from.
  assert (LoS : forall i j m, n <= m -> low m (sub s i j)).
  { intros i j m Hm. apply sub_low. destruct Lo; [left; lia|now right]. }
  assert (S1 : forall h2 i j, keeps (length h) h h2 -> i <= j <= k -> holds h2 (sub s i j) (slice vs i j)).
  { intros h2 i j K Hij. eapply holds_keeps; [exact K|now apply LoS|apply sub_holds; [exact H|exact Hij]]. }
  assert (IN : forall i j, i <= j <= k -> forall a x, inside (sub s i j) a x -> a < length h).
  { intros i j Hij. eapply inside_low; [apply (S1 h); [apply keeps_refl|exact Hij]|now apply LoS]. }
  assert (W : forall h2 i j b, keeps (length h) h h2 -> i < j <= k -> (0 <= b < N)%Z ->
    sim (length h2) (inside (sub s i j)) (WithChan_sl grow N limit b (sub s i j)) h2
      (Ret (wit b N 1 (slice vs i j))) (made (length h2))).
  { intros h2 i j b K Hij Rb. apply (goodw_Chan N limit HN).
    - apply S1; [exact K|lia].
    - apply LoS. destruct K. lia.
    - now apply slice_Forall.
    - rewrite slice_length; lia.
    - now right. }
  assert (P1 := sim_par _ _ _ _ _ _ _ _ h _ _ _ (fun h2 => made (length h2))
                  (IN 0 (k / 4) ltac:(lia)) (IN (k / 4) (k / 2) ltac:(lia))
                  (W h 0 (k / 4) b0 (keeps_refl _ _) ltac:(lia) R0)
                  (fun h1 K => W h1 (k / 4) (k / 2) b1 K ltac:(lia) R1)).
  assert (P2 := fun HP => sim_par _ _ _ _ _ _ _ _ h _ _ _ (fun h2 => made (length h2))
                  HP (IN (k / 2) (k * 3 / 4) ltac:(lia)) P1
                  (fun h1 K => W h1 (k / 2) (k * 3 / 4) b2 K ltac:(lia) R2)).
  specialize (P2 ltac:(intros a i [Hi|Hi]; (eapply IN; [|exact Hi]; lia))).
  assert (P3 := fun HP => sim_par _ _ _ _ _ _ _ _ h _ _ _ (fun h2 => made (length h2))
                  HP (IN (k * 3 / 4) k ltac:(lia)) P2
                  (fun h1 K => W h1 (k * 3 / 4) k b3 K ltac:(lia) R3)).
  specialize (P3 ltac:(intros a i [[Hi|Hi]|Hi]; (eapply IN; [|exact Hi]; lia))).
  eapply sim_step.
  - eapply sim_weaken; [exact P3|exact Hn| |intros x a h' _ Hq; exact Hq].
    intros a i Hi. left. destruct Hi as [[[Hi|Hi]|Hi]|Hi]; destruct Hi as [-> Hi];
      cbn [sub h_arr h_off h_len] in *; (split; [reflexivity|lia]).
  - clear P1 P2 P3 W.
    intros [[[r0 r1] r2] r3] h4 K (h3 & (h2 & (h1 & M0 & M1 & K1 & K2) & M2 & _ & K3) & M3 & _ & K4).
    cbn [fst snd] in *.
    assert (L1 : length h <= length h1) by apply K1. assert (L2 : length h1 <= length h2) by apply K2.
    assert (L3 : length h2 <= length h3) by apply K3. assert (L4' : length h3 <= length h4) by apply K4.
    set (p0 := wit b0 _ _ _) in *. set (p1 := wit b1 _ _ _) in *. set (p2 := wit b2 _ _ _) in *. set (p3 := wit b3 _ _ _) in *.
    assert (N0 : made (length h) p0 r0 h4).
    { eapply made_keeps; [exact K4|apply le_n|]. eapply made_keeps; [exact K3|apply le_n|].
      eapply made_keeps; [exact K2|apply le_n|exact M0]. }
    assert (N1 : made (length h1) p1 r1 h4).
    { eapply made_keeps; [exact K4|apply le_n|]. eapply made_keeps; [exact K3|apply le_n|exact M1]. }
    assert (N2 : made (length h2) p2 r2 h4) by (eapply made_keeps; [exact K4|apply le_n|exact M2]).
    (* the appends write at most into the array of the first result *)
    replace (p0 ++ p1 ++ p2 ++ p3) with (((p0 ++ p1) ++ p2) ++ p3) by now rewrite <- !app_assoc.
    eapply sim_step.
    + eapply sim_append_keeping; [eapply made_le; [|exact N0]; exact Hn|apply N1|].
      eapply made_own, made_le; [|exact N1]. lia.
    + intros q1 h5 K5 G1.
      assert (V2 : holds h5 r2 p2) by (eapply grown_other; [exact G1|apply N2|destruct M0, N2; lia|destruct N2; lia]).
      assert (V3 : holds h5 r3 p3) by (eapply grown_other; [exact G1|apply M3|destruct M0, M3; lia|destruct M3; lia]).
      assert (L5 : length h4 <= length h5) by apply K5. destruct G1 as (Q1 & A1 & _).
      eapply sim_step.
      * eapply sim_append_keeping; [exact Q1|exact V2|]. apply covers_own. destruct N2. lia.
      * intros q2 h6 K6 G2.
        assert (V3' : holds h6 r3 p3) by (eapply grown_other; [exact G2|exact V3|destruct M0, M3, A1; lia|destruct M3; lia]).
        assert (L6 : length h5 <= length h6) by apply K6.
        eapply sim_append_slice; [apply G2|exact V3'|]. apply covers_own. destruct M3. lia.
Qed.

(** the four bases and then the four goroutines *)
Lemma sim_quarters : forall N limit, (0 < N)%Z -> forall b h s vs, holds h s vs -> low (length h) s -> nonneg vs ->
  4 <= length vs ->
  sim (length h) (inside s) (mbind (four_bases b 1 N s) (fun bases => four_goroutines grow N limit bases s)) h
    (Ret (wit b N 1 vs)) (made (length h)).
Proof.
  intros N limit HN b h s vs H Lo Hv L4. pose proof (holds_length _ _ _ H) as Hl.
  assert (PN : forall i j, (0 <= product (slice vs i j))%Z) by (intros; apply product_nonneg, slice_Forall; exact Hv).
  assert (EN : Forall (fun e => 0 <= e)%Z (base_exponents 1 vs)).
  { unfold base_exponents. cbv zeta. rewrite !Z.mul_1_r.
    repeat apply Forall_cons; try apply Forall_nil; apply Z.mul_nonneg_nonneg; apply PN. }
  pose proof (sim_four_bases (length h) (inside s) h s vs b 1 N H (covers_inside _ _ _) (le_n _)) as G.
  rewrite multi_exp_spec in G by assumption.
  eapply sim_step; [exact G|]. clear G EN. unfold base_exponents. cbv zeta. cbn [map]. rewrite !Z.mul_1_r.
  intros bases h1 K1 Hm.
  assert (L : length h <= length h1) by apply K1.
  eapply sim_eq; [|eapply (sim_four_goroutines N limit HN); try exact Hm; try exact L;
    [eapply holds_keeps; eassumption|exact Lo|exact Hv|exact L4| | | |]; apply Z.mod_pos_bound, HN].
  cbv zeta. f_equal. set (n := length vs) in *.
  rewrite !wit_base by (auto using slice_Forall; try lia; apply Z.mul_nonneg_nonneg; apply PN).
  rewrite !Z.mul_1_r.
  transitivity (wit b N 1 (slice vs 0 n)); [|unfold n; now rewrite slice_full].
  assert (Q1 : 0 <= n / 2 <= n) by (clear; lia). assert (Q2 : 0 <= n / 4 <= n / 2) by (clear; lia).
  assert (Q3 : n / 2 <= n * 3 / 4 <= n) by (clear; lia).
  rewrite (slice_app _ vs 0 (n / 2) n Q1), (slice_app _ vs 0 (n / 4) (n / 2) Q2),
    (slice_app _ vs (n / 2) (n * 3 / 4) n Q3).
  rewrite !wit_app, !product_app, <- !app_assoc.
  wit_eq.
Qed.

Lemma goodw_parallel : forall N limit, (0 < N)%Z ->
  goodw N (fun b s => ProveMembershipParallel_sl grow N b s limit).
Proof.
  intros N limit HN b h s vs H Lo Hv L1 Hb. pose proof (holds_length _ _ _ H) as Hl.
  unfold ProveMembershipParallel_sl. destruct (limit <=? 0)%Z; [now apply goodw_membership|].
  destruct (Nat.leb_spec (h_len s) 4) as [S4|S4]; [apply goodw_small; auto; lia|].
  now apply sim_quarters; auto; lia.
Qed.

Lemma good_parallel_randomizer : forall N r limit, (0 < N)%Z -> (0 <= r)%Z -> forall b h s vs,
  holds h s vs -> low (length h) s -> nonneg vs -> 4 <= length vs ->
  sim (length h) (inside s) (ParallelWithRandomizer_sl grow N b r s limit) h
    (Ret (wit b N (if (limit <=? 0)%Z then r else 1%Z) vs)) (made (length h)).
Proof.
  intros N r limit HN Hr b h s vs H Lo Hv L4. unfold ParallelWithRandomizer_sl. destruct (limit <=? 0)%Z.
  - rewrite <- (Randomizer_spec b r N vs) by assumption. now apply good_randomizer.
  - now apply sim_quarters.
Qed.

(** ** the collecting loop of the iterative functions: one array, no copying *)
Lemma update_last : forall h l i vs, update (h ++ [l]) (length h) i vs = h ++ [overwrite l i vs].
Proof.
  intros. unfold update. rewrite array_new, firstn_app, Nat.sub_diag, firstn_all. cbn [firstn].
  rewrite app_nil_r. rewrite skipn_all2; [reflexivity|]. rewrite app_length. cbn. lia.
Qed.
Lemma overwrite_end : forall pre (l vs : list cell), length vs <= length l ->
  overwrite (pre ++ l) (length pre) vs = (pre ++ vs) ++ skipn (length vs) l.
Proof.
  intros pre l vs H. unfold overwrite. rewrite firstn_app, Nat.sub_diag, firstn_all. cbn [firstn].
  rewrite app_nil_r, skipn_app, skipn_all2 by lia. cbn [app].
  replace (length pre + length vs - length pre) with (length vs) by lia. now rewrite app_assoc.
Qed.

Lemma append_each_run : forall (ps pre : list cell) (h : heap) c, length pre + length ps <= c -> exists l,
  append_each grow (Hdr (length h) 0 (length pre) c) ps (h ++ [pre ++ repeat None (c - length pre)]) =
    Ret (Hdr (length h) 0 (length pre + length ps) c,
         h ++ [(pre ++ ps) ++ repeat None (c - length pre - length ps)], l) /\
  Forall (fun x => exists i, x = Wr (length h) i) l.
Proof.
  induction ps as [|p ps IH]; intros pre h c Hc; cbn [append_each].
  - exists []. cbn [length]. rewrite Nat.add_0_r, Nat.sub_0_r, app_nil_r. split; [reflexivity|constructor].
  - cbn [length] in *. destruct (IH (pre ++ [p]) h c) as (l & E & F); [rewrite app_length; cbn; lia|].
    exists (writes (length h) (length pre) 1 ++ l). split.
    + unfold mbind at 1. unfold append. cbn [h_len h_cap h_off h_arr length].
      destruct (Nat.leb_spec (length pre + 1) c); [|lia].
      unfold mbind, write, ret. cbn [bind Nat.add app length]. rewrite update_last, overwrite_end
        by (rewrite repeat_length; cbn; lia).
      rewrite app_length in E. cbn [length] in E.
      destruct (c - length pre) as [|m] eqn:Em; [lia|]. cbn [length repeat skipn].
      replace (c - (length pre + 1)) with m in E by lia. rewrite E. cbn [bind].
      rewrite app_nil_r, <- (app_assoc pre). cbn [app Nat.sub].
      replace (length pre + 1 + length ps) with (length pre + S (length ps)) by lia. reflexivity.
    + apply Forall_app. split; [|exact F]. constructor; [eauto|constructor].
Qed.
Lemma gather_run : forall (ps : list cell) (h : heap) c, length ps <= c -> exists l,
  gather grow c ps h = Ret (Hdr (length h) 0 (length ps) c, h ++ [ps ++ repeat None (c - length ps)], l) /\
  Forall (fun x => exists i, x = Wr (length h) i) l.
Proof.
  intros ps h c Hc. destruct (append_each_run ps [] h c Hc) as (l & E & F). exists l. split; [|exact F].
  unfold gather, mbind, make. cbn [Nat.leb bind]. cbn [length app Nat.add] in E. rewrite Nat.sub_0_r in E.
  unfold heap, cell in *. rewrite E. reflexivity.
Qed.

(** ** GenRepresentatives: a slice without spare capacity *)
Lemma fill_run : forall vs (pre : list cell) (h : heap), exists l,
  fill (Hdr (length h) 0 (length pre + length vs) (length pre + length vs)) (length pre) vs
       (h ++ [pre ++ repeat None (length vs)]) =
    Ret (tt, h ++ [pre ++ map Some vs], l) /\
  Forall (fun x => exists i, x = Wr (length h) i) l.
Proof.
  induction vs as [|v vs IH]; intros pre h; cbn [fill].
  - exists []. split; [reflexivity|constructor].
  - destruct (IH (pre ++ [Some v]) h) as (l & E & F).
    exists (writes (length h) (length pre) 1 ++ l). split.
    + unfold mbind, put. cbn [h_len h_cap h_off h_arr length repeat].
      destruct (Nat.ltb_spec (length pre) (length pre + S (length vs))); [|lia].
      unfold write. cbn [bind Nat.add length]. rewrite update_last, overwrite_end by (cbn; lia).
      cbn [skipn length]. rewrite app_length in E. cbn [length] in E.
      replace (length pre + 1 + length vs) with (length pre + S (length vs)) in E by lia.
      replace (S (length pre)) with (length pre + 1) by lia. unfold heap, cell in *. rewrite E. cbn [bind].
      rewrite <- app_assoc. reflexivity.
    + apply Forall_app. split; [|exact F]. constructor; [eauto|constructor].
Qed.
Lemma representatives_run : forall vs h, exists l,
  representatives vs h = Ret (Hdr (length h) 0 (length vs) (length vs), h ++ [map Some vs], l) /\
  Forall (fun x => exists i, x = Wr (length h) i) l.
Proof.
  intros vs h. destruct (fill_run vs [] h) as (l & E & F). exists l. split; [|exact F].
  unfold representatives, mbind, make. rewrite Nat.leb_refl. cbn [bind]. cbn [app length Nat.add] in E.
  unfold heap, cell in *. rewrite E. cbn [bind ret app]. now rewrite app_nil_r.
Qed.

(** ** the collecting goroutine *)
Lemma overwrite_nth : forall (l : list cell) i vs j, i + length vs <= length l ->
  nth_error (overwrite l i vs) j =
    if (i <=? j) && (j <? i + length vs) then nth_error vs (j - i) else nth_error l j.
Proof.
  intros l i vs j H. unfold overwrite.
  destruct (Nat.leb_spec i j) as [A|A]; cbn [andb].
  - rewrite nth_error_app2 by (rewrite firstn_length; lia). rewrite firstn_length, Nat.min_l by lia.
    destruct (Nat.ltb_spec j (i + length vs)) as [B|B].
    + apply nth_error_app1. lia.
    + rewrite nth_error_app2 by lia.
      rewrite <- (firstn_skipn (i + length vs) l) at 2. rewrite nth_error_app2 by (rewrite firstn_length; lia).
      rewrite firstn_length. f_equal. lia.
  - rewrite nth_error_app1 by (rewrite firstn_length; lia).
    rewrite <- (firstn_skipn i l) at 2. symmetry. apply nth_error_app1. rewrite firstn_length. lia.
Qed.

Definition receipt (h : heap) (T : list Z) (r : nat * nat * hdr) : Prop :=
  let '(lo, hi, p) := r in lo <= hi <= length T /\ holds h p (slice T lo hi) /\ low (length h) p.
Definition covered (rs : list (nat * nat * hdr)) (j : nat) : Prop :=
  exists lo hi p, In (lo, hi, p) rs /\ lo <= j < hi.

Lemma receive_run : forall T rs h cells, length cells = length T -> Forall (receipt h T) rs ->
  exists cells' l,
    receive (Hdr (length h) 0 (length T) (length T)) rs (h ++ [cells]) = Ret (tt, h ++ [cells'], l) /\
    length cells' = length T /\
    (forall j, nth_error cells j = nth_error (map Some T) j -> nth_error cells' j = nth_error (map Some T) j) /\
    (forall j, covered rs j -> nth_error cells' j = nth_error (map Some T) j) /\
    Forall (fine (length h) (S (length h)) (fun a i => exists lo hi p, In (lo, hi, p) rs /\ inside p a i)) l.
Proof.
  intros T. induction rs as [|[[lo hi] p] rs IH]; intros h cells Hc Hr; cbn [receive].
  - exists cells, []. split; [reflexivity|]. split; [exact Hc|]. split; [auto|]. split; [|constructor].
    now intros j (lo & hi & p & [] & _).
  - inversion Hr as [|? ? H0 Hr']; subst. unfold receipt in H0. destruct H0 as (Hlo & Hp & Lp).
    set (vs := slice T lo hi) in *.
    assert (Lv : length vs = hi - lo) by (unfold vs; apply slice_length; lia).
    set (cells1 := overwrite cells lo (map Some vs)).
    assert (L1 : length cells1 = length T) by (unfold cells1; rewrite overwrite_length; rewrite ?map_length; lia).
    destruct (IH h cells1 L1 Hr') as (cells' & l & E & L' & K & Cv & F).
    assert (Hp' : holds (h ++ [cells]) p vs).
    { eapply (holds_keeps (length h) h); [|exact Lp|exact Hp]. split; [rewrite app_length; lia|].
      intros a Ha. now apply array_app. }
    pose proof (holds_length _ _ _ Hp') as Lp'.
    assert (N1 : forall j, nth_error cells1 j =
      if (lo <=? j) && (j <? hi) then nth_error (map Some T) j else nth_error cells j).
    { intros j. unfold cells1. rewrite overwrite_nth by (rewrite map_length; lia). rewrite map_length, Lv.
      replace (lo + (hi - lo)) with hi by lia.
      destruct (Nat.leb_spec lo j) as [A|A]; cbn [andb]; [|reflexivity].
      destruct (Nat.ltb_spec j hi) as [B|B]; [|reflexivity].
      unfold vs, slice. rewrite <- firstn_map, <- skipn_map.
      rewrite <- (firstn_skipn lo (map Some T)) at 2.
      rewrite (nth_error_app2 (firstn lo (map Some T))) by (rewrite firstn_length, map_length; lia).
      rewrite firstn_length, map_length, Nat.min_l by lia.
      rewrite <- (firstn_skipn (hi - lo) (skipn lo (map Some T))) at 2. symmetry. apply nth_error_app1.
      rewrite firstn_length, skipn_length, map_length. lia. }
    exists cells', (reads (h_arr p) (h_off p) (h_len p) ++ writes (length h) lo (hi - lo) ++ l).
    split; [|split; [exact L'|split; [|split]]].
    + unfold mbind at 1. unfold reslice. cbn [h_arr h_off h_cap].
      destruct (Nat.leb_spec lo hi); [|lia]. destruct (Nat.leb_spec hi (length T)); [|lia]. cbn [andb bind].
      unfold mbind, copy, read_all, mbind, write. cbn [bind h_arr h_off h_len Nat.add].
      rewrite (proj2 Hp'), firstn_all2 by (rewrite map_length; lia).
      rewrite update_last. fold cells1. rewrite E. cbn [bind app]. rewrite map_length, Lv, app_assoc. reflexivity.
    + intros j Hj. apply K. rewrite N1. now destruct (_ && _).
    + intros j (lo' & hi' & p' & [[= <- <- <-]|Hin] & Hj).
      * apply K. rewrite N1. destruct (Nat.leb_spec lo j); [|lia]. destruct (Nat.ltb_spec j hi); [|lia]. reflexivity.
      * apply Cv. exists lo', hi', p'. auto.
    + apply Forall_app. split; [|apply Forall_app; split].
      * apply Forall_forall. intros x Hx. apply in_map_iff in Hx. destruct Hx as (i & <- & Hi). apply in_seq in Hi.
        cbn [fine]. left. exists lo, hi, p. split; [now left|]. split; [reflexivity|lia].
      * apply writes_fine. lia.
      * eapply fine_mono; [apply le_n|apply le_n| |exact F].
        intros a i (lo' & hi' & p' & Hin & Hi). left. exists lo', hi', p'. split; [now right|exact Hi].
Qed.
Lemma collector_run : forall T rs h, Forall (receipt h T) rs -> (forall j, j < length T -> covered rs j) ->
  exists l, collector (length T) rs h =
      Ret (Hdr (length h) 0 (length T) (length T), h ++ [map Some T], l) /\
    Forall (fine (length h) (S (length h)) (fun a i => exists lo hi p, In (lo, hi, p) rs /\ inside p a i)) l.
Proof.
  intros T rs h Hr Hc.
  destruct (receive_run T rs h (repeat None (length T)) (repeat_length _ _) Hr) as (cells & l & E & L & _ & Cv & F).
  exists l. split; [|exact F].
  unfold collector, mbind, make. rewrite Nat.leb_refl. cbn [bind]. unfold heap, cell in *. rewrite E.
  cbn [bind ret app]. rewrite app_nil_r.
  replace (map Some T) with cells; [reflexivity|].
  apply list_nth_ext; [now rewrite map_length|].
  intros i x y Hx Hy. assert (Hi : i < length T) by (rewrite <- L; apply nth_error_Some; congruence).
  rewrite (Cv i (Hc i Hi)) in Hx. congruence.
Qed.

(** ** the experiments: two sets appended to one slice without spare capacity *)
Lemma sim_append_full : forall n P h s t vs ws, made n vs s h -> h_len s = h_cap s -> holds h t ws -> covers n P h t ->
  sim n P (append_slice grow s t) h (Ret (vs ++ ws)) (fun ps r h' => made n ps r h' /\ keeps (length h) h h').
Proof.
  intros n P h s t vs ws H Full Ht C.
  pose proof (sim_append_keeping n P h s t vs ws H Ht C) as G. cbn [sim] in *.
  destruct G as (r & h' & l & E & K & F & Hm & _ & O). exists r, h', l.
  split; [exact E|]. split; [exact K|]. split; [exact F|]. split; [exact Hm|].
  split; [apply K|]. intros a La. destruct (Nat.eq_dec a (h_arr s)) as [->|Ne]; [|now apply O].
  pose proof (holds_length _ _ _ Ht) as Lt. destruct Ht as [Wt Vt].
  unfold append_slice, mbind, read_all, append in E. cbn [bind] in E. rewrite Vt, map_length, Full in E. cbv zeta in E.
  destruct (Nat.leb_spec (h_cap s + length ws) (h_cap s)) as [Le|Gt].
  - assert (W0 : ws = []) by (destruct ws; [reflexivity|cbn in Le; lia]). subst ws. cbn [map] in E.
    unfold write, ret, mbind in E. cbn [bind] in E. injection E as _ <- _.
    rewrite array_update_same by exact La. unfold overwrite. cbn [length app]. rewrite Nat.add_0_r. apply firstn_skipn.
  - unfold new_array, ret, mbind in E. cbn [bind] in E. injection E as _ <- _. now apply array_app.
Qed.

Lemma two_sets_run : forall prove U ins rem vi vr h ps,
  holds h ins vi -> low (length h) ins -> holds h rem vr -> low (length h) rem ->
  (forall h1 s, holds h1 s (U ++ vi) -> low (length h1) s ->
     sim (length h1) (inside s) (prove s) h1 (Ret ps) (made (length h1))) ->
  sim (length h) (fun a i => inside ins a i \/ inside rem a i) (two_sets grow prove U ins rem) h (Ret tt)
    (fun _ r h' => let '(newSet1, proofs, original) := r in
       made (length h) (U ++ vi) newSet1 h' /\ made (length h) ps proofs h' /\ made (length h) (U ++ vr) original h').
Proof.
  intros prove U ins rem vi vr h ps Hi Li Hr Lr Hp. unfold two_sets.
  eapply (sim_step _ unit) with (b := tt)
    (Q := fun _ u h1 => u = Hdr (length h) 0 (length U) (length U) /\ h1 = h ++ [map Some U]).
  { cbn [sim]. destruct (representatives_run U h) as (l & E & F). eexists _, _, l. split; [exact E|].
    split; [|split; [|now split]].
    - split; [rewrite app_length; lia|]. intros a Ha. now apply array_app.
    - rewrite app_length. eapply Forall_impl; [|exact F]. intros x (i & ->). cbn. lia. }
  intros u h1 K1 [-> ->]. set (u := Hdr _ _ _ _). set (h1 := h ++ [map Some U]) in *.
  assert (Mu : made (length h) U u h1).
  { split; [split|].
    - unfold wf, u, h1. cbn [h_len h_cap h_off h_arr]. rewrite array_new, map_length. lia.
    - unfold view, u, h1. cbn [h_len h_cap h_off h_arr skipn]. rewrite array_new.
      apply firstn_all2. now rewrite map_length.
    - unfold u, h1. cbn [h_arr]. rewrite app_length. cbn. lia. }
  eapply sim_step; [eapply sim_reslice; [apply Mu|]; cbn [u h_len]; lia|]. intros ? ? _ [-> ->].
  replace (sub u 0 (h_len u)) with u by (unfold sub, u; cbn; now rewrite !Nat.sub_0_r).
  assert (Ci : forall h', covers (length h) (fun a i => inside ins a i \/ inside rem a i) h' ins) by (intros h' a i H; left; now left).
  assert (Cr : forall h', covers (length h) (fun a i => inside ins a i \/ inside rem a i) h' rem) by (intros h' a i H; left; now right).
  eapply sim_step; [eapply sim_append_full; [exact Mu|reflexivity|eapply holds_keeps; eassumption|apply Ci]|].
  intros s1 h2 K2 [M1 K2'].
  eapply sim_step; [eapply sim_reslice; [apply M1|rewrite (holds_length _ _ _ (proj1 M1)); lia]|]. intros ? ? _ [-> ->].
  assert (Hs : holds h2 (sub s1 0 (h_len s1)) (U ++ vi)).
  { rewrite <- (slice_full _ (U ++ vi)). rewrite <- (holds_length _ _ _ (proj1 M1)). apply sub_holds; [apply M1|lia]. }
  assert (L1 : length h <= length h1) by apply K1. assert (L2 : length h1 <= length h2) by apply K2.
  eapply sim_step.
  { eapply sim_weaken; [apply (Hp h2 _ Hs)| | |].
    - left. cbn [sub h_arr]. apply M1.
    - lia.
    - intros a i [-> _]. right. cbn [sub h_arr]. apply M1.
    - intros b a h' K Hm. exact (conj Hm K). }
  intros pr h3 K3 [M2 K3'].
  assert (Mu3 : made (length h) U u h3).
  { eapply made_keeps; [exact K3'|apply le_n|]. eapply made_keeps; [exact K2'|apply le_n|exact Mu]. }
  eapply sim_step; [eapply sim_append_full; [exact Mu3|reflexivity| |apply Cr]|].
  { eapply holds_keeps; [exact K3|exact Lr|]. eapply holds_keeps; [exact K2|exact Lr|]. eapply holds_keeps; eassumption. }
  intros s2 h4 K4 [M3 K4']. apply sim_ret. split; [|split].
  - eapply made_keeps; [exact K4'|apply le_n|]. eapply made_keeps; [exact K3'|apply le_n|exact M1].
  - eapply made_keeps; [exact K4'|apply le_n|]. eapply made_le; [|exact M2]. lia.
  - exact M3.
Qed.
End WithGrow.
