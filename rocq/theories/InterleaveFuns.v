(** The functions of InterleaveModel.v satisfy [runs]. *)
From Coq Require Import ZArith Bool List Lia.
From Verif Require Import GoBig Spec AccModel AccFacts AccProofs SliceModel SliceProofs InterleaveModel InterleaveProofs.
Import ListNotations.
Open Scope nat_scope.

Ltac Zify.zify_post_hook ::= Z.to_euclidean_division_equations.

Lemma slice_error : forall A (l : list A) i j k v, nth_error (slice l i j) k = Some v -> nth_error l (i + k) = Some v.
Proof.
  intros A l i j k v. unfold slice. intros E.
  assert (nth_error (skipn i l) k = Some v).
  { revert E. generalize (skipn i l) (j - i). clear. intros l n. revert l k.
    induction n as [|n IH]; intros [|x l] [|k]; cbn [firstn nth_error]; try discriminate; auto. }
  clear E. revert l H. induction i as [|i IH]; intros [|x l] H; cbn [skipn nth_error Nat.add] in *; auto; now destruct k.
Qed.
Lemma overwrite_nil : forall (c : list cell) i, overwrite c i [] = c.
Proof. intros c i. unfold overwrite. cbn [length app]. rewrite Nat.add_0_r. apply firstn_skipn. Qed.
Lemma overwrite_cons : forall (c : list cell) i v vs, i + S (length vs) <= length c ->
  overwrite (overwrite c i [v]) (S i) vs = overwrite c i (v :: vs).
Proof.
  intros c i v vs L. unfold overwrite. cbn [length].
  assert (L1 : length (firstn i c) = i) by (apply firstn_length_le; lia).
  change ([v] ++ skipn (i + 1) c) with (v :: skipn (i + 1) c).
  replace (firstn (S i) (firstn i c ++ v :: skipn (i + 1) c)) with (firstn i c ++ [v]).
  - rewrite <- app_assoc. cbn [app]. do 3 f_equal.
    rewrite skipn_app, L1, skipn_all2 by lia. cbn [app].
    replace (S i + length vs - i) with (S (length vs)) by lia. cbn [skipn].
    replace (i + S (length vs)) with (length vs + (i + 1)) by lia.
    generalize (i + 1) as m. intros m. generalize (length vs) as n. intros n. clear. revert m n.
    induction c as [|x c IH]; intros m n; [now rewrite !skipn_nil|].
    destruct m; [now rewrite Nat.add_0_r|]. rewrite Nat.add_succ_r. cbn [skipn]. apply IH.
  - rewrite firstn_app, L1. rewrite (firstn_all2 (n := S i)) by lia. replace (S i - i) with 1 by lia. reflexivity.
Qed.
Lemma overwrite_length1 : forall (c : list cell) i v, i < length c -> length (overwrite c i [v]) = length c.
Proof. intros. apply overwrite_length. cbn. lia. Qed.
Lemma overwrite_all : forall (l : list cell), overwrite (repeat None (length l)) 0 l = l.
Proof.
  intros l. unfold overwrite. cbn [firstn app Nat.add]. rewrite skipn_all2 by now rewrite repeat_length.
  apply app_nil_r.
Qed.

Section Funs.
Variable H0 : heap.
Variable P : nat -> nat -> Prop.
Notation runs := (runs H0 P).

(** a slice whose elements may be read by everybody *)
Definition shared (s : hdr) (vs : list Z) : Prop :=
  h_len s = length vs /\ h_len s <= h_cap s /\
  forall i v, nth_error vs i = Some v -> P (h_arr s) (h_off s + i) /\ cell_at H0 (h_arr s) (h_off s + i) = Some (Some v).
(** a slice in an array that is owned *)
Definition mine (O : owned) (ps : list Z) (r : hdr) : Prop :=
  exists c, O (h_arr r) = Some c /\ h_off r + h_cap r <= length c /\ h_len r = length ps /\ h_len r <= h_cap r /\
  forall i v, nth_error ps i = Some v -> nth_error c (h_off r + i) = Some (Some v).
Definition readable (O : owned) (s : hdr) (vs : list Z) : Prop :=
  h_len s = length vs /\ forall i v, nth_error vs i = Some v -> rd H0 P O (h_arr s) (h_off s + i) (Some v).

Lemma shared_readable : forall O s vs, shared s vs -> readable O s vs.
Proof. intros O s vs (L & _ & H). split; [exact L|]. intros i v E. left. now apply H. Qed.
Lemma mine_readable : forall O s vs, mine O vs s -> readable O s vs.
Proof. intros O s vs (c & E & _ & L & _ & H). split; [exact L|]. intros i v Ev. right. exists c. auto. Qed.
Lemma mine_within : forall O O' ps r, within O O' -> mine O ps r -> mine O' ps r.
Proof. intros O O' ps r W (c & E & H). exists c. split; [now apply W|exact H]. Qed.

Lemma runs_getz : forall A O s vs i v (f : Z -> prog A) (Q : A -> owned -> Prop), readable O s vs -> nth_error vs i = Some v ->
  runs (f v) O Q -> runs (pbind (pgetz s i) f) O Q.
Proof.
  intros A O s vs i v f Q [L R] E H. unfold pgetz, pget.
  assert (i < length vs) by (apply nth_error_Some; congruence).
  destruct (Nat.ltb_spec i (h_len s)); [|lia]. cbn [pbind InterleaveProofs.runs].
  exists (Some v). split; [now apply R|]. exact H.
Qed.

Lemma shared_sub : forall s vs i j, shared s vs -> i <= j <= length vs -> shared (sub s i j) (slice vs i j).
Proof.
  intros s vs i j (L & C & H) Hij. unfold shared, sub. cbn [h_arr h_off h_len h_cap].
  rewrite slice_length by exact Hij. split; [reflexivity|]. split; [lia|]. intros k v E.
  apply slice_error in E. rewrite <- Nat.add_assoc. now apply H.
Qed.
Lemma preslice_sub : forall s vs i j, shared s vs -> i <= j <= length vs -> preslice s i j = PRet (sub s i j).
Proof.
  intros s vs i j (L & C & _) Hij. unfold preslice.
  destruct (Nat.leb_spec i j), (Nat.leb_spec j (h_cap s)); try lia. reflexivity.
Qed.
Lemma pfrom_sub : forall s vs i, shared s vs -> i <= length vs -> pfrom s i = PRet (sub s i (length vs)).
Proof. intros s vs i H Hi. unfold pfrom. rewrite (proj1 H). now apply (preslice_sub s vs). Qed.

(** ** products *)
Lemma runs_mul_from : forall O s vs (Q : Z -> owned -> Prop), shared s vs -> forall k i acc, i + k = length vs ->
  Q (fold_left Z.mul (skipn i vs) acc) O -> runs (pmul_from acc s i k) O Q.
Proof.
  intros O s vs Q H. induction k as [|k IH]; intros i acc Hk HQ; cbn [pmul_from].
  - rewrite skipn_all2 in HQ by lia. exact HQ.
  - destruct (nth_error vs i) as [v|] eqn:E; [|apply nth_error_None in E; lia].
    eapply runs_getz; [apply shared_readable, H|exact E|]. apply IH; [lia|].
    replace (skipn i vs) with (v :: skipn (S i) vs) in HQ; [exact HQ|].
    clear - E. revert vs E. induction i as [|i IHi]; intros [|x vs] E; try discriminate.
    + cbn in *. congruence.
    + cbn [nth_error] in E. cbn [skipn]. apply IHi in E. cbn [skipn] in E. exact E.
Qed.
Lemma runs_product : forall f O s vs (Q : Z -> owned -> Prop), shared s vs -> length vs <= f -> Q (product vs) O ->
  runs (set_product_p f s) O Q.
Proof.
  assert (B : forall O s vs (Q : Z -> owned -> Prop), shared s vs -> Q (product vs) O -> runs (pmul_from 1 s 0 (h_len s)) O Q).
  { intros O s vs Q H HQ. apply (runs_mul_from O s vs Q H); [cbn; apply H|]. cbn [skipn].
    now change (fold_left Z.mul vs 1%Z) with (SetProduct vs); rewrite SetProduct_spec. }
  induction f as [|f IH]; intros O s vs Q H Hf HQ; pose proof (proj1 H) as Hl; cbn [set_product_p]; cbv zeta;
    destruct (Nat.leb_spec (h_len s) 2) as [Hs|Hs]; try (now apply (B O s vs)); try lia.
  rewrite !Hl. set (k := length vs) in *.
  rewrite (preslice_sub s vs) by (auto; lia). cbn [pbind].
  apply runs_bind. eapply IH; [apply shared_sub; [exact H|lia]|rewrite slice_length; lia|].
  rewrite (pfrom_sub s vs) by (auto; lia). cbn [pbind].
  apply runs_bind. eapply IH; [apply shared_sub; [exact H|lia]|rewrite slice_length; lia|].
  cbn [InterleaveProofs.runs]. fold k. rewrite <- product_app, <- slice_app by lia. unfold k. now rewrite slice_full.
Qed.
Lemma runs_Product : forall A O s vs (f : Z -> prog A) (Q : A -> owned -> Prop), shared s vs ->
  runs (f (product vs)) O Q -> runs (pbind (SetProductRecursiveFast_p s) f) O Q.
Proof.
  intros A O s vs f Q H G. apply runs_bind. apply (runs_product _ O s vs); auto. rewrite (proj1 H). lia.
Qed.
Lemma runs_product_parallel : forall f s vs limit O, shared s vs -> length vs <= f ->
  runs (product_parallel_p f s limit) O (fun x _ => x = product vs).
Proof.
  assert (B : forall s vs O, shared s vs -> runs (SetProductRecursiveFast_p s) O (fun x _ => x = product vs)).
  { intros s vs O H. apply (runs_product _ O s vs); auto. rewrite (proj1 H). lia. }
  induction f as [|f IH]; intros s vs limit O H Hf; pose proof (proj1 H) as Hl; cbn [product_parallel_p]; cbv zeta;
    destruct (limit =? 0)%Z; try (now apply B); destruct (Nat.leb_spec (h_len s) 2) as [Hs|Hs]; try (now apply B); try lia.
  rewrite !Hl. set (k := length vs) in *. rewrite (preslice_sub s vs) by (auto; lia). cbn [pbind].
  apply runs_bind. eapply runs_par.
  - apply (IH _ (slice vs 0 (k / 2))); [apply shared_sub; [exact H|lia]|rewrite slice_length; lia].
  - rewrite (pfrom_sub s vs) by (auto; lia). cbn [pbind].
    apply (IH _ (slice vs (k / 2) k)); [apply shared_sub; [exact H|lia]|rewrite slice_length; lia].
  - intros x y O1 O2 O' -> -> _ _ _. cbn [InterleaveProofs.runs]. rewrite <- product_app, <- slice_app by lia.
    unfold k. now rewrite slice_full.
Qed.

(** ** arrays *)
Lemma runs_pread : forall O a (Q : list cell -> owned -> Prop) vs i,
  (forall k v, nth_error vs k = Some v -> rd H0 P O a (i + k) v) -> Q vs O -> runs (pread a i (length vs)) O Q.
Proof.
  intros O a Q vs. revert Q. induction vs as [|v vs IH]; intros Q i H HQ; cbn [length pread]; [exact HQ|].
  cbn [InterleaveProofs.runs]. exists v. split; [specialize (H 0 v eq_refl); now rewrite Nat.add_0_r in H|].
  apply runs_bind. apply IH; [|exact HQ]. intros k w E. specialize (H (S k) w E).
  now rewrite Nat.add_succ_r in H.
Qed.
Lemma runs_read_all : forall A O s vs (f : list cell -> prog A) (Q : A -> owned -> Prop), readable O s vs ->
  runs (f (map Some vs)) O Q -> runs (pbind (pread_all s) f) O Q.
Proof.
  intros A O s vs f Q [L R] H. apply runs_bind. unfold pread_all. rewrite L. rewrite <- (map_length Some vs).
  apply runs_pread; [|exact H]. intros k v E. rewrite nth_error_map in E.
  destruct (nth_error vs k) eqn:Ek; [|discriminate]. injection E as <-. now apply R.
Qed.
Lemma runs_pwrite : forall a vs i O c (Q : unit -> owned -> Prop), O a = Some c -> i + length vs <= length c ->
  (forall O', O' a = Some (overwrite c i vs) -> (forall b, b <> a -> O' b = O b) -> Q tt O') ->
  runs (pwrite a i vs) O Q.
Proof.
  intros a vs. induction vs as [|v vs IH]; intros i O c Q E L HQ; cbn [pwrite InterleaveProofs.runs length] in *.
  - apply HQ; [now rewrite overwrite_nil|auto].
  - exists c. split; [exact E|]. split; [lia|].
    eapply IH; [apply set_same|rewrite overwrite_length1; lia|].
    intros O' E' K. apply HQ.
    + rewrite E'. now rewrite overwrite_cons by lia.
    + intros b Hb. rewrite K by exact Hb. now apply set_other.
Qed.
Lemma runs_new_array : forall A l O (f : hdr -> prog A) (Q : A -> owned -> Prop),
  (forall a O', O a = None -> O' a = Some l -> (forall b, b <> a -> O' b = O b) ->
     runs (f (Hdr a 0 (length l) (length l))) O' Q) ->
  runs (pbind (pnew_array l) f) O Q.
Proof.
  intros A l O f Q H. unfold pnew_array. cbn [pbind InterleaveProofs.runs]. intros a Ea.
  apply runs_bind, runs_bind. eapply runs_pwrite; [apply set_same|rewrite repeat_length; cbn; lia|].
  intros O' E' K. cbn [InterleaveProofs.runs]. apply H; [exact Ea| |].
  - rewrite E'. now rewrite overwrite_all.
  - intros b Hb. rewrite K by exact Hb. now apply set_other.
Qed.

(** [r] is new, has the numbers [ps] in it, and nothing that was owned before has changed *)
Definition got (O : owned) (ps : list Z) (r : hdr) (O' : owned) : Prop :=
  O (h_arr r) = None /\ within O O' /\ mine O' ps r.

Lemma within_new : forall O O' a, O a = None -> (forall b, b <> a -> O' b = O b) -> within O O'.
Proof. intros O O' a E K b c Eb. rewrite K; [exact Eb|congruence]. Qed.

Lemma runs_exps : forall A O base N es vs (f : hdr -> prog A) (Q : A -> owned -> Prop), multi_exp base N es = Ret vs ->
  (forall r O', got O vs r O' -> runs (f r) O' Q) ->
  runs (pbind (pexps base N es) f) O Q.
Proof.
  intros A O base N es vs f Q E H. unfold pexps. rewrite E. cbn [plift pbind].
  apply runs_new_array. intros a O' Ea E' K. apply H. split; [exact Ea|]. cbn [h_arr]. split.
  - eapply within_new; eassumption.
  - exists (map Some vs). cbn [h_arr h_off h_len h_cap]. rewrite map_length. split; [exact E'|].
    split; [lia|]. split; [reflexivity|]. split; [lia|]. intros i v Ei. cbn [Nat.add]. rewrite nth_error_map, Ei. reflexivity.
Qed.
Lemma pbind_ret : forall A (Q : A -> owned -> Prop) (p : prog A) O, runs (pbind p PRet) O Q -> runs p O Q.
Proof.
  intros A Q p. revert Q. induction p as [A x|A|A a i k IH|A a i v k IH|A n k IH|A B C p IHp q IHq k IHk]; intros Q O H; cbn [pbind InterleaveProofs.runs] in *; auto.
  - destruct H as (v & R & H). eauto.
  - destruct H as (c & E & L & H). eauto.
  - destruct H as (O1 & O2 & F & Q1 & Q2 & h1 & h2 & h3 & h4 & h5 & h6 & h7 & h8 & H).
    exists O1, O2, F, Q1, Q2. repeat (split; [assumption|]). intros b c O1' O2' O' g1 g2 g3 g4 g5 g6 g7 g8.
    apply IHk. now apply (H b c O1' O2' O').
Qed.
Lemma runs_exps_last : forall O base N es vs, multi_exp base N es = Ret vs -> runs (pexps base N es) O (got O vs).
Proof. intros O base N es vs E. apply pbind_ret. eapply runs_exps; [exact E|]. auto. Qed.

Variable grow : nat -> nat -> nat.

(** what append leaves alone *)
Definition grown (s : hdr) (O : owned) (r : hdr) (O' : owned) : Prop :=
  (forall b c, b <> h_arr s -> O b = Some c -> O' b = Some c) /\ (h_arr r = h_arr s \/ O (h_arr r) = None).

Lemma overwrite_error : forall (c : list cell) i vs k, i + length vs <= length c ->
  nth_error (overwrite c i vs) k =
    if k <? i then nth_error c k else if k <? i + length vs then nth_error vs (k - i) else nth_error c k.
Proof.
  intros c i vs k L. unfold overwrite. assert (L1 : length (firstn i c) = i) by (apply firstn_length_le; lia).
  assert (F : forall n (l : list cell) j, j < n -> nth_error (firstn n l) j = nth_error l j).
  { clear. induction n as [|n IH]; intros [|x l] [|j] Hj; cbn [firstn nth_error]; try reflexivity; try lia. apply IH. lia. }
  assert (K : forall n (l : list cell) j, nth_error (skipn n l) j = nth_error l (n + j)).
  { clear. induction n as [|n IH]; intros [|x l] j; cbn [skipn nth_error Nat.add]; auto. now destruct j. }
  destruct (Nat.ltb_spec k i).
  - rewrite nth_error_app1 by lia. now apply F.
  - rewrite nth_error_app2 by lia. rewrite L1. destruct (Nat.ltb_spec k (i + length vs)).
    + apply nth_error_app1. lia.
    + rewrite nth_error_app2 by lia. rewrite K. f_equal. lia.
Qed.

Lemma runs_append : forall O s vs ws (Q : hdr -> owned -> Prop), mine O vs s ->
  (forall r O', grown s O r O' -> mine O' (vs ++ ws) r -> Q r O') ->
  runs (pappend grow s (map Some ws)) O Q.
Proof.
  intros O s vs ws Q H HQ. pose proof (mine_readable _ _ _ H) as R. destruct H as (c & E & B & L & C & V).
  unfold pappend. rewrite map_length. cbv zeta. destruct (Nat.leb_spec (h_len s + length ws) (h_cap s)) as [Hc|Hc].
  - apply runs_bind. eapply runs_pwrite; [exact E|rewrite map_length; lia|]. intros O' E' K. cbn [InterleaveProofs.runs]. apply HQ.
    + split; [|now left]. intros b d Hb Eb. now rewrite K.
    + exists (overwrite c (h_off s + h_len s) (map Some ws)). cbn [h_arr h_off h_len h_cap].
      split; [exact E'|]. rewrite overwrite_length by (rewrite map_length; lia). split; [exact B|].
      rewrite app_length, L. split; [reflexivity|]. split; [lia|]. intros i v Ei.
      rewrite overwrite_error by (rewrite map_length; lia). rewrite map_length.
      destruct (Nat.lt_ge_cases i (length vs)) as [Li|Li].
      * rewrite nth_error_app1 in Ei by exact Li. destruct (Nat.ltb_spec (h_off s + i) (h_off s + length vs)); [|lia].
        now apply V.
      * rewrite nth_error_app2 in Ei by exact Li.
        assert (i - length vs < length ws) by (apply nth_error_Some; congruence).
        destruct (Nat.ltb_spec (h_off s + i) (h_off s + length vs)); [lia|].
        destruct (Nat.ltb_spec (h_off s + i) (h_off s + length vs + length ws)); [|lia].
        rewrite nth_error_map. replace (h_off s + i - (h_off s + length vs)) with (i - length vs) by lia.
        now rewrite Ei.
  - eapply runs_read_all; [exact R|]. set (n := h_len s + length ws). set (m := Nat.max n (grow (h_cap s) n)).
    apply runs_new_array. intros a O' Ea E' K. cbn [InterleaveProofs.runs h_arr]. apply HQ.
    + split; [|now right]. intros b d _ Eb. rewrite K; [exact Eb|congruence].
    + eexists. cbn [h_arr h_off h_len h_cap]. split; [exact E'|].
      rewrite !app_length, !map_length, repeat_length.
      assert (n <= m) by apply Nat.le_max_l. rewrite <- L. fold n. split; [lia|]. split; [reflexivity|]. split; [assumption|].
      intros i v Ei. cbn [Nat.add]. rewrite app_assoc, <- map_app.
      assert (i < length (vs ++ ws)) by (apply nth_error_Some; congruence).
      rewrite nth_error_app1 by now rewrite map_length. now rewrite nth_error_map, Ei.
Qed.
Lemma runs_append_slice : forall A O s t vs ws (f : hdr -> prog A) (Q : A -> owned -> Prop), mine O vs s -> mine O ws t ->
  (forall r O', grown s O r O' -> mine O' (vs ++ ws) r -> runs (f r) O' Q) ->
  runs (pbind (pappend_slice grow s t) f) O Q.
Proof.
  intros A O s t vs ws f Q Hs Ht H. apply runs_bind. unfold pappend_slice.
  eapply runs_read_all; [apply mine_readable, Ht|]. eapply runs_append; eassumption.
Qed.
Lemma grown_mine : forall s O r O' t ws, grown s O r O' -> mine O ws t -> h_arr t <> h_arr s ->
  mine O' ws t /\ h_arr t <> h_arr r.
Proof.
  intros s O r O' t ws [G1 G2] (c & E & M) Hn. split; [exists c; split; [now apply G1|exact M]|].
  destruct G2 as [G2|G2]; [congruence|]. intros Eq. rewrite <- Eq in G2. congruence.
Qed.
Lemma got_append : forall A O O1 O2 p q xs ys (f : hdr -> prog A) (Q : A -> owned -> Prop), got O xs p O1 -> got O1 ys q O2 ->
  (forall r O', got O (xs ++ ys) r O' -> runs (f r) O' Q) ->
  runs (pbind (pappend_slice grow p q) f) O2 Q.
Proof.
  intros A O O1 O2 p q xs ys f Q (N1 & W1 & M1) (N2 & W2 & M2) H.
  eapply runs_append_slice; [eapply mine_within; eassumption|exact M2|].
  intros r O' [G1 G2] M. apply H. split; [|split; [|exact M]].
  - destruct G2 as [->|G2]; [exact N1|]. apply (within_none _ _ _ W1), (within_none _ _ _ W2), G2.
  - intros b c Eb. apply G1; [congruence|]. now apply W2, W1.
Qed.

(** ** handleSmallSet *)
Ltac step_get := eapply runs_getz; [eassumption|reflexivity|].
Lemma runs_small : forall O s vs base N ps, shared s vs -> handleSmallSet base N vs = Ret ps ->
  runs (handleSmallSet_p grow base N s) O (got O ps).
Proof.
  intros O s vs base N ps H E. pose proof (shared_readable O s vs H) as R. unfold handleSmallSet_p. rewrite (proj1 H).
  destruct vs as [|x0 [|x1 [|x2 [|x3 [|x4 vs]]]]]; cbn [length handleSmallSet] in *; try discriminate E.
  - injection E as <-. unfold pmake. cbn [Nat.leb pbind InterleaveProofs.runs]. intros a Ea.
    unfold pput. cbn [h_len h_arr h_off Nat.ltb Nat.leb Nat.add]. apply runs_bind.
    eapply runs_pwrite; [apply set_same|cbn; lia|]. intros O' E' K. cbn [InterleaveProofs.runs].
    split; [exact Ea|]. split.
    + eapply within_new; [exact Ea|]. intros b Hb. rewrite K by exact Hb. now apply set_other.
    + eexists. cbn [h_arr h_off h_len h_cap]. split; [exact E'|]. cbn. split; [lia|]. split; [reflexivity|]. split; [lia|].
      intros [|[|i]] v Ei; cbn [nth_error] in Ei; [injection Ei as <-; reflexivity|discriminate|discriminate].
  - do 2 step_get. now apply runs_exps_last.
  - do 6 step_get. destruct (multi_exp base N [(x1 * x2)%Z; (x0 * x2)%Z]) as [vs| |] eqn:Em; cbn [bind] in E; try discriminate E.
    injection E as <-. eapply runs_exps; [exact Em|]. intros r O' (N1 & W1 & M1).
    change [Some (AccumulateNew base (x0 * x1) N)] with (map Some [AccumulateNew base (x0 * x1) N]).
    eapply runs_append; [exact M1|]. intros r2 O2 [G1 G2] M2. split; [|split; [|exact M2]].
    + destruct G2 as [->|G2]; [exact N1|]. now apply (within_none _ _ _ W1).
    + intros b c Eb. apply G1; [congruence|]. now apply W1.
  - do 8 step_get. rewrite (Z.mul_comm x2 x3), (Z.mul_comm x3 x2) in E. now apply runs_exps_last.
Qed.

(** ** four bases, four calls *)
Ltac cut := first [rewrite (preslice_sub _ _) by (eauto; lia) | rewrite (pfrom_sub _ _) by (eauto; lia)]; cbn [pbind].

Lemma runs_four_bases : forall A O s vs base r N bs (f : hdr -> prog A) (Q : A -> owned -> Prop), shared s vs ->
  multi_exp base N (base_exponents r vs) = Ret bs ->
  (forall b O', got O bs b O' -> runs (f b) O' Q) -> runs (pbind (four_bases_p base r N s) f) O Q.
Proof.
  intros A O s vs base r N bs f Q H E G. apply runs_bind. unfold four_bases_p. cbv zeta. rewrite !(proj1 H).
  unfold base_exponents in E. cbv zeta in E. set (k := length vs) in *.
  rewrite (pfrom_sub s vs) by (auto; lia). cbn [pbind]. eapply runs_Product; [apply shared_sub; [exact H|lia]|].
  rewrite (preslice_sub s vs) by (auto; lia). cbn [pbind]. eapply runs_Product; [apply shared_sub; [exact H|lia]|].
  rewrite (preslice_sub s vs) by (auto; lia). cbn [pbind]. eapply runs_Product; [apply shared_sub; [exact H|lia]|].
  rewrite (preslice_sub s vs) by (auto; lia). cbn [pbind]. eapply runs_Product; [apply shared_sub; [exact H|lia]|].
  rewrite (pfrom_sub s vs) by (auto; lia). cbn [pbind]. eapply runs_Product; [apply shared_sub; [exact H|lia]|].
  rewrite (preslice_sub s vs) by (auto; lia). cbn [pbind]. eapply runs_Product; [apply shared_sub; [exact H|lia]|].
  apply (runs_mono H0 P _ _ O (got O bs)); [|exact G]. now apply runs_exps_last.
Qed.

(** what is proved of a sequential function *)
Definition goodp (N : Z) (call : Z -> hdr -> prog hdr) (vs : list Z) : Prop :=
  forall b s O, shared s vs -> base_ok b N vs -> runs (call b s) O (got O (wit b N 1 vs)).

Lemma got_mine : forall O ps r O' t ws, got O ps r O' -> mine O ws t -> mine O' ws t.
Proof. intros O ps r O' t ws (_ & W & _) M. now apply (mine_within O). Qed.

Lemma runs_four_calls : forall N (call : Z -> hdr -> prog hdr) s vs bases b0 b1 b2 b3 O, (0 < N)%Z ->
  shared s vs -> 4 <= length vs ->
  (forall i j, i < j <= length vs -> (j - i < length vs)%nat -> goodp N call (slice vs i j)) ->
  mine O [b0; b1; b2; b3] bases ->
  (0 <= b0 < N)%Z -> (0 <= b1 < N)%Z -> (0 <= b2 < N)%Z -> (0 <= b3 < N)%Z ->
  runs (four_calls_p grow call bases s) O (got O
    (let k := length vs in
     wit b0 N 1 (slice vs 0 (k / 4)) ++ wit b1 N 1 (slice vs (k / 4) (k / 2)) ++
     wit b2 N 1 (slice vs (k / 2) (k * 3 / 4)) ++ wit b3 N 1 (slice vs (k * 3 / 4) k))).
Proof.
  intros N call s vs bases b0 b1 b2 b3 O HN H L4 G Hb R0 R1 R2 R3. unfold four_calls_p. cbv zeta. rewrite !(proj1 H).
  set (k := length vs) in *.
  assert (D1 : 0 < k / 4 /\ k / 4 < k / 2 /\ k / 2 < k * 3 / 4 /\ k * 3 / 4 < k) by (clear - L4; lia).
  assert (C : forall i j b O, i < j <= k -> j - i < k -> (0 <= b < N)%Z -> runs (call b (sub s i j)) O (got O (wit b N 1 (slice vs i j)))).
  { intros i j b O' Hij Hlt Rb. apply G; [exact Hij|exact Hlt|apply shared_sub; [exact H|lia]|now right]. }
  clear G.
  replace (wit b0 N 1 (slice vs 0 (k / 4)) ++ _) with
    (((wit b0 N 1 (slice vs 0 (k / 4)) ++ wit b1 N 1 (slice vs (k / 4) (k / 2))) ++
     wit b2 N 1 (slice vs (k / 2) (k * 3 / 4))) ++ wit b3 N 1 (slice vs (k * 3 / 4) k)) by now rewrite <- !app_assoc.
  (* first and second *)
  eapply runs_getz; [apply mine_readable, Hb|reflexivity|]. rewrite (preslice_sub s vs) by (auto; lia). cbn [pbind].
  apply runs_bind. eapply runs_mono; [apply C; [lia|lia|exact R0]|]. intros p0 O1 g0. cbn beta.
  eapply runs_getz; [apply mine_readable; eapply got_mine; [exact g0|exact Hb]|reflexivity|].
  rewrite (preslice_sub s vs) by (auto; lia). cbn [pbind].
  apply runs_bind. eapply runs_mono; [apply C; [lia|lia|exact R1]|]. intros q1 O2 g1. cbn beta.
  eapply got_append; [exact g0|exact g1|]. intros p1 O3 g2. clear O1 O2 g0 g1.
  (* third *)
  eapply runs_getz; [apply mine_readable; eapply got_mine; [exact g2|exact Hb]|reflexivity|].
  rewrite (preslice_sub s vs) by (auto; lia). cbn [pbind].
  apply runs_bind. eapply runs_mono; [apply C; [lia|lia|exact R2]|]. intros q2 O4 g3. cbn beta.
  eapply got_append; [exact g2|exact g3|]. intros p2 O5 g4. clear O3 O4 g2 g3.
  (* fourth *)
  eapply runs_getz; [apply mine_readable; eapply got_mine; [exact g4|exact Hb]|reflexivity|].
  rewrite (pfrom_sub s vs) by (auto; lia). cbn [pbind].
  apply runs_bind. eapply runs_mono; [apply C; [lia|lia|exact R3]|]. intros q3 O6 g5. cbn beta.
  apply pbind_ret. eapply got_append; [exact g4|exact g5|]. intros r O7 g6. exact g6.
Qed.

Definition base_list (b r N : Z) (vs : list Z) : list Z := map (fun e => b ^ e mod N)%Z (base_exponents r vs).

Lemma base_list_exp : forall b r N vs, (0 < N)%Z -> (0 <= r)%Z -> nonneg vs ->
  multi_exp b N (base_exponents r vs) = Ret (base_list b r N vs).
Proof.
  intros b r N vs HN Hr Hv.
  assert (PN : forall i j, (0 <= product (slice vs i j))%Z) by (intros; apply product_nonneg, slice_Forall; exact Hv).
  apply multi_exp_spec; [exact HN|]. unfold base_exponents. cbv zeta.
  repeat apply Forall_cons; try apply Forall_nil; repeat apply Z.mul_nonneg_nonneg; auto.
Qed.

(** the values of the four quarters put together *)
Lemma wit_quarters : forall b r N vs, (0 < N)%Z -> (0 <= r)%Z -> nonneg vs ->
  let k := length vs in
  wit b N r vs =
  wit (nth 0 (base_list b r N vs) 0%Z) N 1 (slice vs 0 (k / 4)) ++
  wit (nth 1 (base_list b r N vs) 0%Z) N 1 (slice vs (k / 4) (k / 2)) ++
  wit (nth 2 (base_list b r N vs) 0%Z) N 1 (slice vs (k / 2) (k * 3 / 4)) ++
  wit (nth 3 (base_list b r N vs) 0%Z) N 1 (slice vs (k * 3 / 4) k).
Proof.
  intros b r N vs HN Hr Hv k.
  assert (PN : forall i j, (0 <= product (slice vs i j))%Z) by (intros; apply product_nonneg, slice_Forall; exact Hv).
  unfold base_list, base_exponents. cbv zeta. cbn [map nth]. fold k.
  rewrite !wit_base by (auto using slice_Forall; try lia; repeat apply Z.mul_nonneg_nonneg; auto).
  rewrite !Z.mul_1_r.
  transitivity (wit b N r (slice vs 0 k)); [unfold k; now rewrite slice_full|].
  assert (Q1 : 0 <= k / 2 <= k) by (clear; lia). assert (Q2 : 0 <= k / 4 <= k / 2) by (clear; lia).
  assert (Q3 : k / 2 <= k * 3 / 4 <= k) by (clear; lia).
  rewrite (slice_app _ vs 0 (k / 2) k Q1), (slice_app _ vs 0 (k / 4) (k / 2) Q2),
    (slice_app _ vs (k / 2) (k * 3 / 4) k Q3).
  rewrite !wit_app, !product_app, <- !app_assoc.
  f_equal; [f_equal; ring|]. f_equal; [f_equal; ring|]. f_equal; f_equal; ring.
Qed.
Lemma base_list_range : forall b r N vs i, (0 < N)%Z -> (0 <= nth i (base_list b r N vs) 0 < N)%Z.
Proof.
  intros b r N vs i HN. unfold base_list, base_exponents. cbv zeta. cbn [map].
  destruct i as [|[|[|[|i]]]]; cbn [nth]; try (apply Z.mod_pos_bound; exact HN). destruct i; lia.
Qed.
Lemma base_list_four : forall b r N vs, base_list b r N vs =
  [nth 0 (base_list b r N vs) 0; nth 1 (base_list b r N vs) 0; nth 2 (base_list b r N vs) 0; nth 3 (base_list b r N vs) 0]%Z.
Proof. reflexivity. Qed.

Lemma got_trans : forall O O1 ps r bs b O2, got O bs b O1 -> got O1 ps r O2 -> got O ps r O2.
Proof.
  intros O O1 ps r bs b O2 (N1 & W1 & M1) (N2 & W2 & M2). split; [now apply (within_none _ _ _ W1)|].
  split; [now apply (within_trans _ O1)|exact M2].
Qed.

Lemma good_quarters_seq : forall N (call : Z -> hdr -> prog hdr) b r s vs O, (0 < N)%Z -> (0 <= r)%Z -> nonneg vs ->
  shared s vs -> 4 <= length vs ->
  (forall i j, i < j <= length vs -> (j - i < length vs)%nat -> goodp N call (slice vs i j)) ->
  runs (pbind (four_bases_p b r N s) (fun bases => four_calls_p grow call bases s)) O (got O (wit b N r vs)).
Proof.
  intros N call b r s vs O HN Hr Hv H L4 G.
  eapply runs_four_bases; [exact H|now apply base_list_exp|]. intros bases O1 g. rewrite base_list_four in g.
  rewrite (wit_quarters b r N vs HN Hr Hv).
  eapply runs_mono; [eapply runs_four_calls; [exact HN|exact H|exact L4|exact G|apply g| | | |]; now apply base_list_range|].
  intros x O2 g2. eapply got_trans; eassumption.
Qed.

Lemma good_membership_p : forall N, (0 < N)%Z -> forall f vs, nonneg vs -> 1 <= length vs <= f ->
  goodp N (prove_membership_p grow f N) vs.
Proof.
  intros N HN. induction f as [|f IH]; intros vs Hv Hf b s O H Hb; [lia|].
  cbn [prove_membership_p]. rewrite (proj1 H). destruct (Nat.leb_spec (length vs) 4).
  - apply (runs_small O s vs); [exact H|]. apply handleSmallSet_spec; auto; lia.
  - apply good_quarters_seq; auto; try lia. intros i j Hij Hlt. apply IH; [now apply slice_Forall|].
    rewrite slice_length by lia. lia.
Qed.
Lemma good_ProveMembership_p : forall N vs, (0 < N)%Z -> nonneg vs -> 1 <= length vs -> goodp N (ProveMembership_p grow N) vs.
Proof.
  intros N vs HN Hv L b s O H Hb. unfold ProveMembership_p. rewrite (proj1 H). now apply good_membership_p.
Qed.
Lemma good_randomizer_p : forall N b r s vs O, (0 < N)%Z -> (0 <= r)%Z -> nonneg vs -> shared s vs -> 4 <= length vs ->
  runs (SingleThreadWithRandomizer_p grow N b r s) O (got O (wit b N r vs)).
Proof.
  intros N b r s vs O HN Hr Hv H L4. apply good_quarters_seq; auto. intros i j Hij Hlt.
  apply good_ProveMembership_p; [exact HN|now apply slice_Forall|]. rewrite slice_length by lia. lia.
Qed.

(** ** goroutines *)
Lemma apart_arr : forall O1 O2 ps qs r t, apart O1 O2 -> mine O1 ps r -> mine O2 qs t -> h_arr t <> h_arr r.
Proof.
  intros O1 O2 ps qs r t A (c & E & _) (d & E' & _) Eq. rewrite Eq in E'. rewrite (A (h_arr r)) in E'; congruence.
Qed.
Lemma got_only : forall (p : prog hdr) O ps, runs p O (got O ps) -> runs p O (fun r O' => mine O' ps r).
Proof. intros p O ps H. eapply runs_mono; [exact H|]. now intros r O' (_ & _ & M). Qed.

Lemma good_chan_p : forall N, (0 < N)%Z -> forall f limit b s vs O, nonneg vs -> 1 <= length vs <= f -> shared s vs ->
  base_ok b N vs -> runs (with_chan_p grow f N limit b s) O (fun r O' => mine O' (wit b N 1 vs) r).
Proof.
  intros N HN. induction f as [|f IH]; intros limit b s vs O Hv Hf H Hb; [lia|].
  cbn [with_chan_p]. destruct (limit <=? 0)%Z; [apply got_only, good_ProveMembership_p; auto; lia|]. cbv zeta. rewrite !(proj1 H).
  destruct (Nat.leb_spec (length vs) 4).
  { apply got_only. apply (runs_small O s vs); [exact H|]. apply handleSmallSet_spec; auto; lia. }
  set (k := length vs) in *.
  assert (PN : forall i j, (0 <= product (slice vs i j))%Z) by (intros; apply product_nonneg, slice_Forall; exact Hv).
  rewrite (pfrom_sub s vs) by (auto; lia). cbn [pbind]. eapply runs_Product; [apply shared_sub; [exact H|lia]|].
  rewrite (preslice_sub s vs) by (auto; lia). cbn [pbind]. eapply runs_Product; [apply shared_sub; [exact H|lia]|].
  fold k. set (e1 := product (slice vs (k / 2) k)). set (e2 := product (slice vs 0 (k / 2))).
  eapply (runs_exps _ _ _ _ _ [(b ^ e1 mod N)%Z; (b ^ e2 mod N)%Z]).
  { rewrite multi_exp_spec; [reflexivity|exact HN|]. repeat constructor; apply PN. }
  intros bases O1 (_ & _ & Mb).
  eapply runs_getz; [apply mine_readable, Mb|reflexivity|]. cbn [pbind].
  apply runs_bind. eapply runs_par.
  - apply (IH _ _ _ (slice vs 0 (k / 2))).
    + now apply slice_Forall.
    + rewrite slice_length; lia.
    + apply shared_sub; [exact H|lia].
    + right. apply Z.mod_pos_bound, HN.
  - eapply runs_getz; [apply mine_readable, Mb|reflexivity|]. cbn [pbind].
    apply (IH _ _ _ (slice vs (k / 2) k)).
    + now apply slice_Forall.
    + rewrite slice_length; lia.
    + apply shared_sub; [exact H|lia].
    + right. apply Z.mod_pos_bound, HN.
  - intros r1 r2 O2 O3 O4 M1 M2 W1 W2 A. cbn beta in *.
    apply pbind_ret. eapply runs_append_slice; [eapply mine_within; [exact W1|exact M1]|eapply mine_within; [exact W2|exact M2]|].
    intros r O5 _ M. cbn [InterleaveProofs.runs]. clear - M HN Hv PN Hf.
    rewrite !wit_base in M by (auto using slice_Forall; try lia; apply PN).
    rewrite !Z.mul_1_r in M. replace (wit b N 1 vs) with (wit b N e1 (slice vs 0 (k / 2)) ++ wit b N e2 (slice vs (k / 2) k)); [exact M|].
    transitivity (wit b N 1 (slice vs 0 k)); [|unfold k; now rewrite slice_full].
    rewrite (slice_app _ vs 0 (k / 2) k) by lia. rewrite wit_app. unfold e1, e2. f_equal; f_equal; ring.
Qed.

Lemma runs_four_goroutines : forall N limit s vs bases b0 b1 b2 b3 O, (0 < N)%Z -> nonneg vs ->
  shared s vs -> 4 <= length vs -> mine O [b0; b1; b2; b3] bases ->
  (0 <= b0 < N)%Z -> (0 <= b1 < N)%Z -> (0 <= b2 < N)%Z -> (0 <= b3 < N)%Z ->
  runs (four_goroutines_p grow N limit bases s) O (fun r O' => mine O'
    (let k := length vs in
     wit b0 N 1 (slice vs 0 (k / 4)) ++ wit b1 N 1 (slice vs (k / 4) (k / 2)) ++
     wit b2 N 1 (slice vs (k / 2) (k * 3 / 4)) ++ wit b3 N 1 (slice vs (k * 3 / 4) k)) r).
Proof.
  intros N limit s vs bases b0 b1 b2 b3 O HN Hv H L4 Hb R0 R1 R2 R3. unfold four_goroutines_p. cbv zeta. rewrite !(proj1 H).
  set (k := length vs) in *.
  assert (D1 : 0 < k / 4 /\ k / 4 < k / 2 /\ k / 2 < k * 3 / 4 /\ k * 3 / 4 < k) by (clear - L4; lia).
  assert (C : forall i j b O, i < j <= k -> (0 <= b < N)%Z ->
    runs (WithChan_p grow N limit b (sub s i j)) O (fun r O' => mine O' (wit b N 1 (slice vs i j)) r)).
  { intros i j b O' Hij Rb. unfold WithChan_p. cbn [sub h_len]. rewrite <- (slice_length _ vs i j) by (fold k; lia).
    apply good_chan_p; [exact HN|now apply slice_Forall|rewrite slice_length by (fold k; lia); lia| |now right].
    apply shared_sub; [exact H|fold k; lia]. }
  set (p0 := wit b0 _ _ _). set (p1 := wit b1 _ _ _). set (p2 := wit b2 _ _ _). set (p3 := wit b3 _ _ _).
  replace (p0 ++ p1 ++ p2 ++ p3) with (((p0 ++ p1) ++ p2) ++ p3) by now rewrite <- !app_assoc.
  eapply runs_getz; [apply mine_readable, Hb|reflexivity|]. rewrite (preslice_sub s vs) by (auto; fold k; lia). cbn [pbind].
  apply runs_bind.
  eapply (runs_par _ _ _ _ _ _ _ _ (fun '(r1, (r2, r3)) O' => mine O' p1 r1 /\ mine O' p2 r2 /\ mine O' p3 r3 /\
    h_arr r2 <> h_arr r1 /\ h_arr r3 <> h_arr r1 /\ h_arr r3 <> h_arr r2)).
  - apply C; [lia|exact R0].
  - eapply runs_getz; [apply mine_readable, Hb|reflexivity|]. rewrite (preslice_sub s vs) by (auto; fold k; lia). cbn [pbind].
    eapply (runs_par _ _ _ _ _ _ _ _ (fun '(r2, r3) O' => mine O' p2 r2 /\ mine O' p3 r3 /\ h_arr r3 <> h_arr r2)).
    + apply C; [lia|exact R1].
    + eapply runs_getz; [apply mine_readable, Hb|reflexivity|]. rewrite (preslice_sub s vs) by (auto; fold k; lia). cbn [pbind].
      eapply runs_par.
      * apply C; [lia|exact R2].
      * eapply runs_getz; [apply mine_readable, Hb|reflexivity|]. rewrite (pfrom_sub s vs) by (auto; fold k; lia). cbn [pbind].
        apply C; [fold k; lia|exact R3].
      * intros r2 r3 O1 O2 O' M2 M3 W1 W2 A. split; [now apply (mine_within O1)|]. split; [now apply (mine_within O2)|].
        exact (apart_arr _ _ _ _ _ _ A M2 M3).
    + intros r1 [r2 r3] O1 O2 O' M1 (M2 & M3 & Hn) W1 W2 A.
      split; [now apply (mine_within O1)|]. split; [now apply (mine_within O2)|]. split; [now apply (mine_within O2)|].
      split; [eapply apart_arr; [exact A|exact M1|exact M2]|]. split; [eapply apart_arr; [exact A|exact M1|exact M3]|exact Hn].
  - intros r0 [r1 [r2 r3]] O1 O2 O3 M0 (M1 & M2 & M3 & N1 & N2 & N3) W1 W2 A.
    assert (N4 : h_arr r1 <> h_arr r0) by (eapply apart_arr; [exact A|exact M0|exact M1]).
    assert (N5 : h_arr r2 <> h_arr r0) by (eapply apart_arr; [exact A|exact M0|exact M2]).
    assert (N6 : h_arr r3 <> h_arr r0) by (eapply apart_arr; [exact A|exact M0|exact M3]).
    apply (mine_within _ _ _ _ W1) in M0. apply (mine_within _ _ _ _ W2) in M1.
    apply (mine_within _ _ _ _ W2) in M2. apply (mine_within _ _ _ _ W2) in M3.
    eapply runs_append_slice; [exact M0|exact M1|]. intros q1 O4 G1 K1.
    destruct (grown_mine _ _ _ _ _ _ G1 M2 N5) as [M2' N7]. destruct (grown_mine _ _ _ _ _ _ G1 M3 N6) as [M3' N8].
    eapply runs_append_slice; [exact K1|exact M2'|]. intros q2 O5 G2 K2.
    destruct (grown_mine _ _ _ _ _ _ G2 M3' N8) as [M3'' N9].
    apply pbind_ret. eapply runs_append_slice; [exact K2|exact M3''|]. intros q3 O6 _ K3. exact K3.
Qed.

Lemma good_quarters_par : forall N limit b s vs O, (0 < N)%Z -> nonneg vs -> shared s vs -> 4 <= length vs ->
  runs (pbind (four_bases_p b 1 N s) (fun bases => four_goroutines_p grow N limit bases s)) O
    (fun r O' => mine O' (wit b N 1 vs) r).
Proof.
  intros N limit b s vs O HN Hv H L4.
  eapply runs_four_bases; [exact H|apply base_list_exp; auto; lia|]. intros bases O1 (_ & _ & g). rewrite base_list_four in g.
  rewrite (wit_quarters b 1 N vs HN ltac:(lia) Hv).
  eapply runs_four_goroutines; [exact HN|exact Hv|exact H|exact L4|exact g| | | |]; now apply base_list_range.
Qed.
Lemma good_parallel_p : forall N limit b s vs O, (0 < N)%Z -> nonneg vs -> shared s vs -> 1 <= length vs -> base_ok b N vs ->
  runs (ProveMembershipParallel_p grow N b s limit) O (fun r O' => mine O' (wit b N 1 vs) r).
Proof.
  intros N limit b s vs O HN Hv H L1 Hb. unfold ProveMembershipParallel_p.
  destruct (limit <=? 0)%Z; [now apply got_only, good_ProveMembership_p|]. rewrite (proj1 H).
  destruct (Nat.leb_spec (length vs) 4).
  - apply got_only. apply (runs_small O s vs); [exact H|]. apply handleSmallSet_spec; auto; lia.
  - apply good_quarters_par; auto; lia.
Qed.
Lemma good_parallel_randomizer_p : forall N limit b r s vs O, (0 < N)%Z -> (0 <= r)%Z -> nonneg vs -> shared s vs -> 4 <= length vs ->
  runs (ParallelWithRandomizer_p grow N b r s limit) O
    (fun x O' => mine O' (wit b N (if (limit <=? 0)%Z then r else 1%Z) vs) x).
Proof.
  intros N limit b r s vs O HN Hr Hv H L4. unfold ParallelWithRandomizer_p. destruct (limit <=? 0)%Z.
  - now apply got_only, good_randomizer_p.
  - now apply good_quarters_par.
Qed.
End Funs.
