(** Proofs about InterleaveModel.v: a goroutine owns the arrays it has made, reads only these and the
    elements of the caller's slice, and hands its arrays over when it finishes. *)
From Coq Require Import ZArith Bool List Lia.
From Verif Require Import GoBig Spec AccModel AccFacts AccProofs SliceModel SliceProofs InterleaveModel.
Import ListNotations.
Open Scope nat_scope.

Definition owned := nat -> option (list cell).
Definition within (O O' : owned) : Prop := forall a c, O a = Some c -> O' a = Some c.
Definition apart (O1 O2 : owned) : Prop := forall a, O1 a <> None -> O2 a = None.
Definition set (O : owned) (a : nat) (c : list cell) : owned := fun b => if b =? a then Some c else O b.
Definition nothing : owned := fun _ => None.
Definition union (O1 O2 : owned) : owned := fun a => match O1 a with Some c => Some c | None => O2 a end.

Lemma set_same : forall O a c, set O a c a = Some c.
Proof. intros. unfold set. now rewrite Nat.eqb_refl. Qed.
Lemma set_other : forall O a c b, b <> a -> set O a c b = O b.
Proof. intros. unfold set. destruct (Nat.eqb_spec b a); congruence. Qed.
Lemma apart_sym : forall O1 O2, apart O1 O2 -> apart O2 O1.
Proof. intros O1 O2 H a H2. destruct (O1 a) eqn:E; [|reflexivity]. exfalso. apply H2, H. congruence. Qed.
Lemma within_refl : forall O, within O O. Proof. now intros O a c. Qed.
Lemma within_trans : forall O1 O2 O3, within O1 O2 -> within O2 O3 -> within O1 O3.
Proof. intros O1 O2 O3 H1 H2 a c H. auto. Qed.
Lemma within_none : forall O O' a, within O O' -> O' a = None -> O a = None.
Proof. intros O O' a H E. destruct (O a) eqn:E1; [|reflexivity]. apply H in E1. congruence. Qed.

Section Proofs.
(** the heap the caller hands over and the cells it allows to be read *)
Variable H0 : heap.
Variable P : nat -> nat -> Prop.

(** cell [i] of array [a] may be read and holds [v] *)
Definition rd (O : owned) (a i : nat) (v : cell) : Prop :=
  (P a i /\ cell_at H0 a i = Some v) \/ exists c, O a = Some c /\ nth_error c i = Some v.

(** [p], owning [O], can be run next to anything that leaves [O] alone, and ends in [Q] *)
Fixpoint runs {A} (p : prog A) (O : owned) (Q : A -> owned -> Prop) {struct p} : Prop :=
  match p with
  | PRet x => Q x O
  | PStop => False
  | PRead a i k => exists v, rd O a i v /\ runs (k v) O Q
  | PWrite a i v k => exists c, O a = Some c /\ i < length c /\ runs k (set O a (overwrite c i [v])) Q
  | PNew n k => forall a, O a = None -> runs (k a) (set O a (repeat None n)) Q
  | PPar p q k => exists O1 O2 F Q1 Q2,
      within O1 O /\ within O2 O /\ within F O /\ apart O1 O2 /\ apart O1 F /\ apart O2 F /\
      runs p O1 Q1 /\ runs q O2 Q2 /\
      forall b c O1' O2' O', Q1 b O1' -> Q2 c O2' ->
        within O1' O' -> within O2' O' -> within F O' -> apart O1' O2' -> apart O1' F -> apart O2' F ->
        runs (k b c) O' Q
  end.

Lemma runs_mono : forall A (p : prog A) O (Q Q' : A -> owned -> Prop),
  runs p O Q -> (forall x O', Q x O' -> Q' x O') -> runs p O Q'.
Proof.
  induction p as [A x|A|A a i k IH|A a i v k IH|A n k IH|A B C p IHp q IHq k IHk]; intros O Q Q' H HQ; cbn [runs] in *.
  - now apply HQ.
  - exact H.
  - destruct H as (v & R & H). exists v. split; [exact R|]. now apply (IH v O Q).
  - destruct H as (c & E & L & H). exists c. split; [exact E|]. split; [exact L|]. now apply (IH _ Q).
  - intros a E. now apply (IH a _ Q); [apply H|].
  - destruct H as (O1 & O2 & F & Q1 & Q2 & h1 & h2 & h3 & h4 & h5 & h6 & h7 & h8 & H).
    exists O1, O2, F, Q1, Q2. repeat (split; [assumption|]). intros b c O1' O2' O' g1 g2 g3 g4 g5 g6 g7 g8.
    apply (IHk b c O' Q); [|exact HQ]. now apply (H b c O1' O2' O').
Qed.
Lemma runs_bind : forall A B (p : prog A) (f : A -> prog B) O Q,
  runs p O (fun x O' => runs (f x) O' Q) -> runs (pbind p f) O Q.
Proof.
  intros A B p f. revert f. induction p as [A x|A|A a i k IH|A a i v k IH|A n k IH|A C D p IHp q IHq k IHk]; intros f O Q H; cbn [runs pbind] in *.
  - exact H.
  - exact H.
  - destruct H as (v & R & H). exists v. split; [exact R|]. now apply IH.
  - destruct H as (c & E & L & H). exists c. split; [exact E|]. split; [exact L|]. now apply IH.
  - intros a E. now apply IH, H.
  - destruct H as (O1 & O2 & F & Q1 & Q2 & h1 & h2 & h3 & h4 & h5 & h6 & h7 & h8 & H).
    exists O1, O2, F, Q1, Q2. repeat (split; [assumption|]). intros b c O1' O2' O' g1 g2 g3 g4 g5 g6 g7 g8.
    apply IHk. now apply (H b c O1' O2' O').
Qed.

(** two goroutines, the first of which starts with nothing *)
Lemma runs_par : forall A B (p : prog A) (q : prog B) O Q1 Q2 (Q : A * B -> owned -> Prop),
  runs p nothing Q1 -> runs q O Q2 ->
  (forall x y O1 O2 O', Q1 x O1 -> Q2 y O2 -> within O1 O' -> within O2 O' -> apart O1 O2 -> Q (x, y) O') ->
  runs (ppar p q) O Q.
Proof.
  intros A B p q O Q1 Q2 Q H1 H2 H. unfold ppar. cbn [runs].
  exists nothing, O, nothing, Q1, Q2. split; [now intros a c|]. split; [apply within_refl|]. split; [now intros a c|].
  split; [intros a E; now elim E|]. split; [intros a E; now elim E|]. split; [now intros a _|].
  split; [exact H1|]. split; [exact H2|]. intros b c O1 O2 O' g1 g2 g3 g4 _ g6 _ _. now apply (H b c O1 O2 O').
Qed.

(** ** soundness *)
(** the heap in the middle of a run *)
Definition sound (O : owned) (h : heap) : Prop :=
  length H0 <= length h /\ (forall a, a < length H0 -> nth_error h a = nth_error H0 a) /\
  forall a c, O a = Some c -> length H0 <= a /\ nth_error h a = Some c.

Lemma array_error : forall (h : heap) a c, nth_error h a = Some c -> array h a = c.
Proof. intros h a c E. unfold array. now apply nth_error_nth. Qed.
Lemma cell_at_low : forall h a i v, cell_at h a i = Some v -> a < length h.
Proof.
  intros h a i v E. unfold cell_at, array in E. destruct (Nat.lt_ge_cases a (length h)) as [L|L]; [exact L|].
  rewrite nth_overflow in E by exact L. now destruct i.
Qed.
Lemma sound_rd : forall O h a i v, sound O h -> rd O a i v -> cell_at h a i = Some v.
Proof.
  intros O h a i v (L & E & S) [[_ R]|(c & R & Ri)].
  - pose proof (cell_at_low _ _ _ _ R) as La. unfold cell_at in *.
    destruct (nth_error H0 a) as [c|] eqn:Ec; [|apply nth_error_None in Ec; lia].
    rewrite (array_error h a c) by (rewrite E; auto). now rewrite (array_error H0 a c) in R.
  - destruct (S a c R) as [_ Eh]. unfold cell_at. now rewrite (array_error h a c Eh).
Qed.
Lemma update_error_same : forall h a i vs c, nth_error h a = Some c -> nth_error (update h a i vs) a = Some (overwrite c i vs).
Proof.
  intros h a i vs c E. assert (La : a < length h) by (apply nth_error_Some; congruence).
  rewrite (nth_error_nth' (update h a i vs) [] (n := a)) by now rewrite update_length.
  change (nth a (update h a i vs) []) with (array (update h a i vs) a).
  rewrite array_update_same by exact La. now rewrite (array_error h a c E).
Qed.
Lemma update_error_other : forall h a i vs b, a < length h -> b <> a -> nth_error (update h a i vs) b = nth_error h b.
Proof.
  intros h a i vs b La Hb. destruct (Nat.lt_ge_cases b (length h)) as [L|L].
  - rewrite (nth_error_nth' (update h a i vs) [] (n := b)) by now rewrite update_length.
    rewrite (nth_error_nth' h [] (n := b)) by exact L. f_equal. apply array_update_other; auto.
  - rewrite !(proj2 (nth_error_None _ _)); try rewrite update_length; auto.
Qed.
Lemma app_error_low : forall (h l : heap) a, a < length h -> nth_error (h ++ l) a = nth_error h a.
Proof. intros. now apply nth_error_app1. Qed.

(** what a goroutine that owns [O] may do to the heap and to its ownership *)
Definition frame (O O' : owned) (h h' : heap) : Prop :=
  length h <= length h' /\
  forall a, O a = None -> a < length h -> nth_error h' a = nth_error h a /\ O' a = None.

Lemma frame_sound : forall O O' h h' F, frame O O' h h' -> apart O F -> sound F h -> sound O' h' -> sound F h'.
Proof.
  intros O O' h h' F [L Fr] Ap (LF & EF & SF) (L' & E' & S'). split; [lia|]. split; [exact E'|].
  intros a c E. destruct (SF a c E) as [La Eh]. split; [exact La|].
  assert (a < length h) by (apply nth_error_Some; congruence).
  destruct (Fr a) as [G _]; auto; [|congruence]. apply (apart_sym _ _ Ap). congruence.
Qed.
Lemma frame_apart : forall O O' h h' F, frame O O' h h' -> apart O F -> sound F h -> apart O' F.
Proof.
  intros O O' h h' F [L Fr] Ap (LF & EF & SF) a Ha. destruct (F a) as [c|] eqn:E; [|reflexivity]. exfalso.
  destruct (SF a c E) as [La Eh]. assert (a < length h) by (apply nth_error_Some; congruence).
  apply Ha. apply (Fr a); auto. apply (apart_sym _ _ Ap). congruence.
Qed.
Lemma sound_within : forall O O' h, within O O' -> sound O' h -> sound O h.
Proof. intros O O' h W (L & E & S). split; [exact L|]. split; [exact E|]. intros a c Ea. now apply S, W. Qed.
Lemma sound_union : forall O1 O2 h, sound O1 h -> sound O2 h -> sound (union O1 O2) h.
Proof.
  intros O1 O2 h (L & E & S1) (_ & _ & S2). split; [exact L|]. split; [exact E|]. intros a c. unfold union.
  destruct (O1 a) eqn:E1; [intros [= <-]; now apply S1|apply S2].
Qed.
Lemma within_union1 : forall O1 O2, within O1 (union O1 O2).
Proof. intros O1 O2 a c E. unfold union. now rewrite E. Qed.
Lemma within_union2 : forall O1 O2, apart O1 O2 -> within O2 (union O1 O2).
Proof.
  intros O1 O2 Ap a c E. unfold union. destruct (O1 a) eqn:E1; [|exact E].
  rewrite (Ap a) in E; congruence.
Qed.
Lemma apart_union : forall O O1 O2, apart O O1 -> apart O O2 -> apart O (union O1 O2).
Proof. intros O O1 O2 A1 A2 a E. unfold union. rewrite (A1 a E). now apply A2. Qed.

Lemma step_par : forall A B C (p : prog B) (q : prog C) (k : B -> C -> prog A) w h p2 h2,
  step (PPar p q k) w h = Some (p2, h2) ->
  (exists b c, p = PRet b /\ q = PRet c /\ p2 = k b c /\ h2 = h) \/
  (exists w' p', step p w' h = Some (p', h2) /\ p2 = PPar p' q k) \/
  (exists w' q', step q w' h = Some (q', h2) /\ p2 = PPar p q' k).
Proof.
  intros A B C p q k w h p2 h2 H.
  assert (G : (exists b c, p = PRet b /\ q = PRet c /\ p2 = k b c /\ h2 = h) \/
    match w with
    | [] => None
    | true :: w' => match step p w' h with Some (p', h') => Some (PPar p' q k, h') | None => None end
    | false :: w' => match step q w' h with Some (q', h') => Some (PPar p q' k, h') | None => None end
    end = Some (p2, h2)).
  { destruct p; try (right; exact H). destruct q; try (right; exact H). left. injection H as <- <-. eauto 6. }
  destruct G as [G|G]; [now left|right]. destruct w as [|[] w]; [discriminate| |].
  - left. destruct (step p w h) as [[p' h']|] eqn:E; [|discriminate]. injection G as <- <-. eauto.
  - right. destruct (step q w h) as [[q' h']|] eqn:E; [|discriminate]. injection G as <- <-. eauto.
Qed.

Lemma step_runs : forall A (p : prog A) w h p' h' O Q, step p w h = Some (p', h') -> runs p O Q -> sound O h ->
  exists O', runs p' O' Q /\ sound O' h' /\ frame O O' h h'.
Proof.
  induction p as [A x|A|A a i k IH|A a i v k IH|A n k IH|A B C p IHp q IHq k IHk]; intros w h p2 h2 O Q St R S; try discriminate St.
  - cbn [step runs] in *. destruct R as (v & R & G). rewrite (sound_rd _ _ _ _ _ S R) in St. injection St as <- <-.
    exists O. split; [exact G|]. split; [exact S|]. now split.
  - cbn [step runs] in *. destruct (cell_at h a i) as [old|] eqn:E; [|discriminate]. injection St as <- <-.
    destruct R as (c & Ec & Li & G). destruct S as (L & S1 & S2). destruct (S2 a c Ec) as [La Ea].
    assert (La' : a < length h) by (apply nth_error_Some; congruence).
    exists (set O a (overwrite c i [v])). split; [exact G|]. split.
    + split; [now rewrite update_length|]. split.
      * intros b Hb. rewrite update_error_other by lia. now apply S1.
      * intros b d. unfold set. destruct (Nat.eqb_spec b a) as [->|Hn].
        -- intros [= <-]. split; [exact La|]. now apply update_error_same.
        -- intros Ed. rewrite update_error_other by assumption. now apply S2.
    + split; [rewrite update_length; auto|]. intros b Eb Lb.
      assert (b <> a) by congruence. rewrite update_error_other, set_other by assumption. now split.
  - cbn [step runs] in *. injection St as <- <-. destruct S as (L & S1 & S2).
    assert (En : O (length h) = None).
    { destruct (O (length h)) as [c|] eqn:E; [|reflexivity]. destruct (S2 _ _ E) as [_ G].
      assert (length h < length h) by (apply nth_error_Some; congruence). lia. }
    exists (set O (length h) (repeat None n)). split; [now apply R|]. split.
    + split; [rewrite app_length; lia|]. split.
      * intros b Hb. rewrite app_error_low by lia. now apply S1.
      * intros b d. unfold set. destruct (Nat.eqb_spec b (length h)) as [->|Hn].
        -- intros [= <-]. split; [exact L|]. rewrite nth_error_app2 by lia. now rewrite Nat.sub_diag.
        -- intros Ed. destruct (S2 _ _ Ed) as [G1 G2]. split; [exact G1|].
           rewrite app_error_low; [exact G2|]. apply nth_error_Some; congruence.
    + split; [rewrite app_length; lia|]. intros b Eb Lb. rewrite set_other by lia. split; [now apply app_error_low|exact Eb].
  - destruct R as (O1 & O2 & F & Q1 & Q2 & W1 & W2 & W3 & A12 & A1F & A2F & R1 & R2 & G).
    apply step_par in St. destruct St as [(b & c & -> & -> & -> & ->)|[(w' & p' & St & ->)|(w' & q' & St & ->)]].
    + exists O. split; [|split; [exact S|now split]]. cbn [runs] in R1, R2. now apply (G b c O1 O2 O).
    + assert (S1 := sound_within _ _ _ W1 S). assert (S2 := sound_within _ _ _ W2 S). assert (S3 := sound_within _ _ _ W3 S).
      destruct (IHp _ _ _ _ _ _ St R1 S1) as (O1' & R1' & S1' & Fr).
      assert (S2' := frame_sound _ _ _ _ _ Fr A12 S2 S1'). assert (S3' := frame_sound _ _ _ _ _ Fr A1F S3 S1').
      assert (A12' := frame_apart _ _ _ _ _ Fr A12 S2). assert (A1F' := frame_apart _ _ _ _ _ Fr A1F S3).
      exists (union O1' (union O2 F)). split; [|split].
      * cbn [runs]. exists O1', O2, F, Q1, Q2. split; [apply within_union1|].
        assert (AU : within (union O2 F) (union O1' (union O2 F))) by now apply within_union2, apart_union.
        split; [exact (within_trans _ _ _ (within_union1 O2 F) AU)|].
        split; [refine (within_trans _ _ _ _ AU); now apply within_union2|]. repeat (split; [assumption|]). exact G.
      * repeat apply sound_union; assumption.
      * destruct Fr as [L Fr]. split; [exact L|]. intros a Ea La.
        destruct (Fr a) as [G1 G2]; auto; [now apply (within_none _ _ _ W1)|]. split; [exact G1|].
        unfold union. rewrite G2, (within_none _ _ _ W2 Ea). now apply (within_none _ _ _ W3).
    + assert (S1 := sound_within _ _ _ W1 S). assert (S2 := sound_within _ _ _ W2 S). assert (S3 := sound_within _ _ _ W3 S).
      destruct (IHq _ _ _ _ _ _ St R2 S2) as (O2' & R2' & S2' & Fr).
      assert (A21 := apart_sym _ _ A12).
      assert (S1' := frame_sound _ _ _ _ _ Fr A21 S1 S2'). assert (S3' := frame_sound _ _ _ _ _ Fr A2F S3 S2').
      assert (A12' := apart_sym _ _ (frame_apart _ _ _ _ _ Fr A21 S1)). assert (A2F' := frame_apart _ _ _ _ _ Fr A2F S3).
      exists (union O1 (union O2' F)). split; [|split].
      * cbn [runs]. exists O1, O2', F, Q1, Q2. split; [apply within_union1|].
        assert (AU : within (union O2' F) (union O1 (union O2' F))) by now apply within_union2, apart_union.
        split; [exact (within_trans _ _ _ (within_union1 O2' F) AU)|].
        split; [refine (within_trans _ _ _ _ AU); now apply within_union2|]. repeat (split; [assumption|]). exact G.
      * repeat apply sound_union; assumption.
      * destruct Fr as [L Fr]. split; [exact L|]. intros a Ea La.
        destruct (Fr a) as [G1 G2]; auto; [now apply (within_none _ _ _ W2)|]. split; [exact G1|].
        unfold union. rewrite (within_none _ _ _ W1 Ea), G2. now apply (within_none _ _ _ W3).
Qed.

Lemma reaches_runs : forall A (p : prog A) h p' h' O Q, reaches p h p' h' -> runs p O Q -> sound O h ->
  exists O', runs p' O' Q /\ sound O' h'.
Proof.
  intros A p h p' h' O Q Re R S. induction Re as [|p1 h1 w p2 h2 Re IH St]; [now exists O|].
  destruct IH as (O1 & R1 & S1). destruct (step_runs _ _ _ _ _ _ _ _ St R1 S1) as (O2 & R2 & S2 & _). now exists O2.
Qed.

(** the accesses a goroutine is about to make are to its own arrays or, reading, to the allowed cells *)
Lemma runs_nexts : forall A (p : prog A) O Q, runs p O Q -> forall x, In x (nexts p) ->
  match x with
  | Rd a i => (P a i /\ a < length H0) \/ O a <> None
  | Wr a i => O a <> None
  | Race => False
  end.
Proof.
  induction p as [A r|A|A a i k IH|A a i v k IH|A n k IH|A B C p IHp q IHq k IHk]; intros O Q R x Hx; cbn [nexts runs] in *; try contradiction.
  - destruct Hx as [<-|[]]. destruct R as (v & [[R1 R2]|(c & R1 & _)] & _).
    + left. split; [exact R1|]. now apply cell_at_low in R2.
    + right. congruence.
  - destruct Hx as [<-|[]]. destruct R as (c & R1 & _). congruence.
  - destruct R as (O1 & O2 & F & Q1 & Q2 & W1 & W2 & W3 & A12 & A1F & A2F & R1 & R2 & G).
    assert (M1 : forall a, O1 a <> None -> O a <> None).
    { intros a Ha E. now apply Ha, (within_none _ _ _ W1). }
    assert (M2 : forall a, O2 a <> None -> O a <> None).
    { intros a Ha E. now apply Ha, (within_none _ _ _ W2). }
    apply in_app_or in Hx. destruct Hx as [Hx|Hx].
    + specialize (IHp _ _ R1 x Hx). destruct x; [destruct IHp; auto|auto|auto].
    + specialize (IHq _ _ R2 x Hx). destruct x; [destruct IHq; auto|auto|auto].
Qed.
Lemma runs_quiet : forall A (p : prog A) O Q h, runs p O Q -> sound O h -> ~ racing p.
Proof.
  induction p as [A x|A|A a i k IH|A a i v k IH|A n k IH|A B C p IHp q IHq k IHk]; intros O Q h R S; cbn [racing]; auto.
  destruct R as (O1 & O2 & F & Q1 & Q2 & W1 & W2 & W3 & A12 & A1F & A2F & R1 & R2 & G).
  assert (S1 := sound_within _ _ _ W1 S). assert (S2 := sound_within _ _ _ W2 S).
  intros [H|[H|H]]; [now apply (IHp _ _ _ R1 S1)|now apply (IHq _ _ _ R2 S2)|].
  unfold conflict in H. apply existsb_exists in H. destruct H as (x & Hx & H).
  apply existsb_exists in H. destruct H as (y & Hy & H).
  apply (runs_nexts _ _ _ _ R1) in Hx. apply (runs_nexts _ _ _ _ R2) in Hy.
  assert (Hi : forall O' a, sound O' h -> O' a <> None -> length H0 <= a).
  { intros O' a (_ & _ & S') Ha. destruct (O' a) eqn:E; [|congruence]. now apply (S' a l). }
  destruct x as [a i|a i|], y as [b j|b j|]; cbn [clash] in H; try discriminate;
    apply andb_true_iff in H; destruct H as [H _]; apply Nat.eqb_eq in H; subst b.
  - destruct Hx as [[_ Hx]|Hx]; [apply (Hi O2) in Hy; auto; lia|]. now apply Hy, A12.
  - destruct Hy as [[_ Hy]|Hy]; [apply (Hi O1) in Hx; auto; lia|]. now apply Hy, A12.
  - now apply Hy, A12.
Qed.
Lemma runs_not_panicked : forall A (p : prog A) O Q, runs p O Q -> ~ panicked p.
Proof.
  induction p as [A x|A|A a i k IH|A a i v k IH|A n k IH|A B C p IHp q IHq k IHk]; intros O Q R; cbn [panicked runs] in *; auto.
  destruct R as (O1 & O2 & F & Q1 & Q2 & W1 & W2 & W3 & A12 & A1F & A2F & R1 & R2 & G).
  intros [H|H]; [now apply (IHp _ _ R1)|now apply (IHq _ _ R2)].
Qed.
Lemma runs_progress : forall A (p : prog A) O Q h, runs p O Q -> sound O h ->
  (exists x, p = PRet x) \/ exists w p' h', step p w h = Some (p', h').
Proof.
  induction p as [A x|A|A a i k IH|A a i v k IH|A n k IH|A B C p IHp q IHq k IHk]; intros O Q h R S.
  - left. now exists x.
  - contradiction R.
  - right. cbn [runs step] in *. destruct R as (v & R & _). rewrite (sound_rd _ _ _ _ _ S R). exists []. eauto.
  - right. cbn [runs step] in *. destruct R as (c & E & L & _). destruct S as (_ & _ & S). destruct (S a c E) as [_ Eh].
    unfold cell_at. rewrite (array_error h a c Eh). destruct (nth_error c i) eqn:Ei; [exists []; eauto|].
    apply nth_error_None in Ei. lia.
  - right. cbn [step]. exists []. eauto.
  - right. destruct R as (O1 & O2 & F & Q1 & Q2 & W1 & W2 & W3 & A12 & A1F & A2F & R1 & R2 & G).
    destruct (IHp _ _ h R1 (sound_within _ _ _ W1 S)) as [[x ->]|(w & p' & h' & E)].
    + destruct (IHq _ _ h R2 (sound_within _ _ _ W2 S)) as [[y ->]|(w & q' & h' & E)].
      * exists []. cbn [step]. eauto.
      * exists (false :: w), (PPar (PRet x) q' k), h'. cbn [step]. rewrite E. now destruct q.
    + exists (true :: w), (PPar p' q k), h'. cbn [step]. rewrite E. now destruct p.
Qed.
End Proofs.

(** ** no run goes on for ever *)
Definition smaller {A} (p' p : prog A) : Prop := exists w h h', step p w h = Some (p', h').
Lemma smaller_par : forall A B C (k : B -> C -> prog A), (forall b c, Acc smaller (k b c)) ->
  forall p, Acc smaller p -> forall q, Acc smaller q -> Acc smaller (PPar p q k).
Proof.
  intros A B C k Hk p Hp. induction Hp as [p _ IHp]. intros q Hq. induction Hq as [q Hq IHq].
  constructor. intros p2 (w & h & h' & St). apply step_par in St.
  destruct St as [(b & c & -> & -> & -> & ->)|[(w' & p' & St & ->)|(w' & q' & St & ->)]].
  - apply Hk.
  - apply IHp; [now exists w', h, h'|now constructor].
  - apply IHq. now exists w', h, h'.
Qed.
Lemma smaller_wf : forall A (p : prog A), Acc smaller p.
Proof.
  induction p as [A x|A|A a i k IH|A a i v k IH|A n k IH|A B C p IHp q IHq k IHk];
    try (constructor; intros p' (w & h & h' & E); cbn [step] in E; discriminate).
  - constructor. intros p' (w & h & h' & E). cbn [step] in E. destruct (cell_at h a i); [|discriminate].
    injection E as <- <-. apply IH.
  - constructor. intros p' (w & h & h' & E). cbn [step] in E. destruct (cell_at h a i); [|discriminate].
    now injection E as <- <-.
  - constructor. intros p' (w & h & h' & E). cbn [step] in E. injection E as <- <-. apply IH.
  - now apply smaller_par.
Qed.
