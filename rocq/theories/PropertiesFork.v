(** C130: transcripts that are copies of one another. Statements about ForkModel.v. *)
From Coq Require Import ZArith Bool String List Lia.
From Verif Require Import FSModel ForkModel.
Import ListNotations.
Open Scope nat_scope.

(** ** vocabulary *)
(** what a user expects: every variable has a history of its own *)
Fixpoint change (k : nat) (f : list string -> list string) (ts : list (list string)) : list (list string) :=
  match ts, k with
  | [], _ => []
  | t :: r, O => f t :: r
  | t :: r, S k' => t :: change k' f r
  end.
Definition expect (challenge : list string -> string) (ts : list (list string)) (c : call) : list (list string) :=
  match c with
  | Init l => ts ++ [l]
  | Copy k => match nth_error ts k with Some t => ts ++ [t] | None => ts end
  | Add k x => change k (fun t => t ++ x) ts
  | Draw k => change k (fun t => t ++ [challenge t]) ts
  end.
Definition infos (st : fstate) : list (list string) := map (view (f_heap st)) (f_vars st).

(** variable [k] is used by [cs]: appended to, drawn from or copied *)
Definition uses (k : nat) (c : call) : bool :=
  match c with Init _ => false | Copy i | Add i _ | Draw i => i =? k end.
Definition unused (k : nat) (cs : list call) : Prop := forall c, In c cs -> uses k c = false.
(** variable [k] has no spare capacity *)
Definition full (st : fstate) (k : nat) : Prop :=
  match h_arr (var st k) with Some a => h_len (var st k) = length (nth a (f_heap st) []) | None => True end.

(** at every copy: the slice is full, or one of the two is not used any more *)
Fixpoint careful (grow : nat -> nat -> nat) (challenge : list string -> string) (st : fstate) (cs : list call) : Prop :=
  match cs with
  | [] => True
  | c :: r =>
      match c with
      | Copy k => full st k \/ unused k r \/ unused (length (f_vars st)) r
      | _ => True
      end /\ careful grow challenge (fstep grow challenge st c) r
  end.

(** ** invariant *)
Definition ok_header (h : heap) (s : header) : Prop :=
  match h_arr s with Some a => a < length h /\ h_len s <= length (nth a h []) | None => h_len s = 0 end.
Definition full_in (h : heap) (s : header) : Prop :=
  match h_arr s with Some a => h_len s = length (nth a h []) | None => True end.
(** of two variables with the same array, [j] can be used only if nothing [i] shows is in its way *)
Definition inv (st : fstate) (cs : list call) : Prop :=
  (forall k, ok_header (f_heap st) (var st k)) /\
  forall i j a, i < length (f_vars st) -> j < length (f_vars st) -> i <> j ->
    h_arr (var st i) = Some a -> h_arr (var st j) = Some a ->
    unused j cs \/ full_in (f_heap st) (var st j) \/ (unused i cs /\ h_len (var st i) <= h_len (var st j)).

Lemma unused_tail : forall k c cs, unused k (c :: cs) -> unused k cs.
Proof. intros k c cs H x Hx. apply H. now right. Qed.

Lemma put_length : forall l k s, k < length l -> length (put l k s) = length l.
Proof. intros l k s H. unfold put. rewrite app_length, firstn_length. cbn [length]. rewrite skipn_length. lia. Qed.
Lemma put_same : forall l k s d, k < length l -> nth k (put l k s) d = s.
Proof.
  intros l k s d H. unfold put. rewrite app_nth2; rewrite firstn_length, Nat.min_l by lia; [|lia]. now rewrite Nat.sub_diag.
Qed.
Lemma put_other : forall l k s d i, k < length l -> i <> k -> nth i (put l k s) d = nth i l d.
Proof.
  intros l k s d i H Hi. unfold put. destruct (Nat.lt_ge_cases i k).
  - rewrite app_nth1 by (rewrite firstn_length; lia). rewrite <- (firstn_skipn k l) at 2.
    now rewrite app_nth1 by (rewrite firstn_length; lia).
  - rewrite app_nth2; rewrite firstn_length, Nat.min_l by lia; [|lia].
    destruct (i - k) as [|m] eqn:E; [lia|]. cbn [nth]. rewrite <- (firstn_skipn (S k) l) at 2.
    rewrite app_nth2; rewrite firstn_length, Nat.min_l by lia; [|lia]. f_equal. lia.
Qed.
Lemma set_arr_length : forall h a c, a < length h -> length (set_arr h a c) = length h.
Proof. intros h a c H. unfold set_arr. rewrite app_length, firstn_length. cbn [length]. rewrite skipn_length. lia. Qed.
Lemma set_arr_same : forall h a c, a < length h -> nth a (set_arr h a c) [] = c.
Proof.
  intros h a c H. unfold set_arr. rewrite app_nth2; rewrite firstn_length, Nat.min_l by lia; [|lia]. now rewrite Nat.sub_diag.
Qed.
Lemma set_arr_other : forall h a c b, a < length h -> b <> a -> nth b (set_arr h a c) [] = nth b h [].
Proof.
  intros h a c b H Hb. unfold set_arr. destruct (Nat.lt_ge_cases b a).
  - rewrite app_nth1 by (rewrite firstn_length; lia). rewrite <- (firstn_skipn a h) at 2.
    now rewrite app_nth1 by (rewrite firstn_length; lia).
  - rewrite app_nth2; rewrite firstn_length, Nat.min_l by lia; [|lia].
    destruct (b - a) as [|m] eqn:E; [lia|]. cbn [nth]. rewrite <- (firstn_skipn (S a) h) at 2.
    rewrite app_nth2; rewrite firstn_length, Nat.min_l by lia; [|lia]. f_equal. lia.
Qed.

Lemma firstn_exact : forall (l x r : list string) n, length l = n -> firstn (n + length x) (l ++ x ++ r) = l ++ x.
Proof.
  intros l x r n <-. rewrite <- app_length, app_assoc, firstn_app, Nat.sub_diag, firstn_all. cbn [firstn]. apply app_nil_r.
Qed.

(** what append does, seen from the other slices *)
Lemma append_spec : forall grow h s x h' s', ok_header h s -> go_append grow h s x = (h', s') ->
  ok_header h' s' /\ view h' s' = view h s ++ x /\
  ((h' = h /\ s' = s /\ x = []) \/
   (exists a, h_arr s = Some a /\ h_arr s' = Some a /\ h_len s <= h_len s' /\ a < length h /\ length h' = length h /\
      length (nth a h' []) = length (nth a h []) /\ (h_len s = length (nth a h []) -> x = []) /\
      firstn (h_len s) (nth a h' []) = firstn (h_len s) (nth a h []) /\
      forall b, b <> a -> nth b h' [] = nth b h []) \/
   (h_arr s' = Some (length h) /\ length h' = S (length h) /\ forall b, b < length h -> nth b h' [] = nth b h [])).
Proof.
  intros grow h s x h' s' Hok E. unfold go_append in E. unfold ok_header in Hok. destruct (h_arr s) as [a|] eqn:Ea.
  - destruct Hok as [La Ln]. destruct (Nat.leb_spec (h_len s + length x) (length (nth a h []))) as [L|L]; injection E as <- <-.
    + set (arr := nth a h []) in *. set (need := h_len s + length x) in *.
      set (arr' := firstn (h_len s) arr ++ x ++ skipn need arr).
      assert (L1 : length (firstn (h_len s) arr) = h_len s) by (rewrite firstn_length; lia).
      assert (L2 : length arr' = length arr).
      { unfold arr'. rewrite !app_length, L1, skipn_length. unfold need in *. lia. }
      split; [|split].
      * unfold ok_header. cbn [h_arr h_len]. rewrite set_arr_length by exact La. rewrite set_arr_same by exact La. rewrite L2. auto.
      * unfold view. cbn [h_arr h_len]. rewrite Ea. rewrite set_arr_same by exact La. fold arr. unfold arr', need.
        now apply firstn_exact.
      * right. left. exists a. cbn [h_arr h_len]. rewrite set_arr_length, set_arr_same by exact La.
        repeat (split; [first [reflexivity|assumption|unfold need; lia]|]). split; [|split].
        -- intros Ef. fold arr in Ef. unfold need in *. destruct x; [reflexivity|cbn [length] in *; lia].
        -- fold arr. unfold arr'. pose proof (firstn_exact (firstn (h_len s) arr) [] (x ++ skipn need arr) (h_len s) L1) as Ex.
           cbn [length app] in Ex. rewrite Nat.add_0_r, app_nil_r in Ex. exact Ex.
        -- intros b Hb. now apply set_arr_other.
    + set (arr := nth a h []) in *. set (need := h_len s + length x) in *.
      set (arr' := firstn (h_len s) arr ++ x ++ repeat EmptyString (grow (length arr) need)).
      assert (L1 : length (firstn (h_len s) arr) = h_len s) by (rewrite firstn_length; lia).
      split; [|split].
      * unfold ok_header. cbn [h_arr h_len]. rewrite app_length. cbn [length]. split; [lia|].
        rewrite app_nth2, Nat.sub_diag by lia. cbn [nth]. unfold arr'. rewrite !app_length, L1. unfold need. lia.
      * unfold view. cbn [h_arr h_len]. rewrite Ea. rewrite app_nth2, Nat.sub_diag by lia. cbn [nth]. fold arr. unfold arr', need.
        now apply firstn_exact.
      * right. right. cbn [h_arr]. split; [reflexivity|]. split; [rewrite app_length; cbn; lia|].
        intros b Hb. now apply app_nth1.
  - destruct x as [|x0 x].
    + injection E as <- <-. split; [unfold ok_header; now rewrite Ea|]. split; [now rewrite app_nil_r|]. now left.
    + injection E as <- <-. split; [|split].
      * unfold ok_header. cbn [h_arr h_len]. rewrite app_length. cbn [length]. split; [lia|].
        rewrite app_nth2, Nat.sub_diag by lia. cbn [nth app length]. rewrite app_length. lia.
      * unfold view. cbn [h_arr h_len]. rewrite Ea. rewrite app_nth2, Nat.sub_diag by lia. cbn [nth app length firstn]. f_equal. rewrite firstn_app, Nat.sub_diag, firstn_all. cbn [firstn]. now rewrite app_nil_r.
      * right. right. cbn [h_arr]. split; [reflexivity|]. split; [rewrite app_length; cbn; lia|].
        intros b Hb. now apply app_nth1.
Qed.

Lemma firstn_shorter : forall (l m : list string) i n, i <= n -> firstn n l = firstn n m -> firstn i l = firstn i m.
Proof.
  intros l m i n H E. replace i with (Nat.min i n) by lia. rewrite <- !firstn_firstn. now rewrite E.
Qed.

(** appending to variable [k] *)
Lemma add_inv : forall grow st k x c cs, k < length (f_vars st) -> uses k c = true -> inv st (c :: cs) ->
  inv (add grow st k x) cs /\ length (f_vars (add grow st k x)) = length (f_vars st) /\
  forall i, i < length (f_vars st) ->
    info_of (add grow st k x) i = if i =? k then info_of st k ++ x else info_of st i.
Proof.
  intros grow st k x c cs Hk Hu [Hok Hsh]. unfold add. destruct (go_append grow (f_heap st) (var st k) x) as [h' s'] eqn:E.
  destruct (append_spec _ _ _ _ _ _ (Hok k) E) as (Hok' & Hv & Hc).
  assert (V1 : var (FSt h' (put (f_vars st) k s')) k = s') by (unfold var; cbn [f_vars]; now apply put_same).
  assert (V2 : forall i, i <> k -> var (FSt h' (put (f_vars st) k s')) i = var st i)
    by (intros i Hi; unfold var; cbn [f_vars]; now apply put_other).
  assert (Uk : ~ unused k (c :: cs)) by (intros U; specialize (U c (or_introl eq_refl)); congruence).
  assert (T : forall i, unused i (c :: cs) -> unused i cs) by (intros i; apply unused_tail).
  split; [|split].
  - destruct Hc as [(-> & -> & _)|[(a & Ea & Ea' & Ll & La & Lh & Lar & Hf & Hp & Ho)|(Ea' & Lh & Ho)]].
    + assert (V : forall i, var (FSt (f_heap st) (put (f_vars st) k (var st k))) i = var st i).
      { intros i. destruct (Nat.eq_dec i k) as [->|Hi]; [exact V1|now apply V2]. }
      split; [intros i; rewrite V; apply Hok|]. cbn [f_heap f_vars]. rewrite put_length by exact Hk. intros i j a Hi Hj Hn.
      rewrite !V. intros Ei Ej. destruct (Hsh i j a Hi Hj Hn Ei Ej) as [U|[F|[U L]]]; auto.
    + split.
      * intros i. cbn [f_heap]. destruct (Nat.eq_dec i k) as [->|Hi]; [now rewrite V1|]. rewrite V2 by exact Hi.
        specialize (Hok i). unfold ok_header in *. destruct (h_arr (var st i)) as [b|]; [|exact Hok]. rewrite Lh.
        destruct (Nat.eq_dec b a) as [->|Hb]; [now rewrite Lar|now rewrite Ho].
      * cbn [f_heap f_vars]. rewrite put_length by exact Hk. intros i j b Hi Hj Hn.
        assert (FI : forall i, full_in (f_heap st) (var st i) -> full_in h' (var st i)).
        { intros m F. unfold full_in in *. destruct (h_arr (var st m)) as [d|]; [|exact F].
          destruct (Nat.eq_dec d a) as [->|Hd]; [now rewrite Lar|now rewrite Ho]. }
        destruct (Nat.eq_dec j k) as [->|Hjk].
        -- rewrite V1, (V2 i) by exact Hn. intros Ei Ej. assert (b = a) by congruence. subst b.
           destruct (Hsh i k a Hi Hk Hn Ei Ea) as [U|[F|[U L]]]; [now elim Uk| |right; right; split; [now apply T|lia]].
           right. left. unfold full_in in F |- *. rewrite Ea in F. rewrite Ea', Lar. specialize (Hf F).
           unfold ok_header in Hok'. rewrite Ea', Lar in Hok'. lia.
        -- rewrite (V2 j) by exact Hjk. destruct (Nat.eq_dec i k) as [->|Hik].
           ++ rewrite V1. intros Ei Ej. assert (b = a) by congruence. subst b.
              destruct (Hsh k j a Hk Hj Hn Ea Ej) as [U|[F|[U _]]]; [left; now apply T|right; left; now apply FI|now elim Uk].
           ++ rewrite (V2 i) by exact Hik. intros Ei Ej.
              destruct (Hsh i j b Hi Hj Hn Ei Ej) as [U|[F|[U L]]]; [left; now apply T|right; left; now apply FI|].
              right. right. split; [now apply T|exact L].
    + split.
      * intros i. cbn [f_heap]. destruct (Nat.eq_dec i k) as [->|Hi]; [now rewrite V1|]. rewrite V2 by exact Hi.
        specialize (Hok i). unfold ok_header in *. destruct (h_arr (var st i)) as [b|]; [|exact Hok]. rewrite Lh, Ho by lia. lia.
      * cbn [f_heap f_vars]. rewrite put_length by exact Hk. intros i j b Hi Hj Hn.
        assert (Lo : forall m d, h_arr (var st m) = Some d -> d < length (f_heap st)).
        { intros m d Em. specialize (Hok m). unfold ok_header in Hok. now rewrite Em in Hok. }
        destruct (Nat.eq_dec j k) as [->|Hjk].
        -- rewrite V1, (V2 i) by exact Hn. intros Ei Ej. apply Lo in Ei. assert (b = length (f_heap st)) by congruence. lia.
        -- rewrite (V2 j) by exact Hjk. destruct (Nat.eq_dec i k) as [->|Hik].
           ++ rewrite V1. intros Ei Ej. apply Lo in Ej. assert (b = length (f_heap st)) by congruence. lia.
           ++ rewrite (V2 i) by exact Hik. intros Ei Ej.
              destruct (Hsh i j b Hi Hj Hn Ei Ej) as [U|[F|[U L]]]; [left; now apply T| |right; right; split; [now apply T|exact L]].
              right. left. unfold full_in in *. rewrite Ej in *. rewrite Ho; [exact F|]. eapply Lo, Ej.
  - cbn [f_vars]. now apply put_length.
  - intros i Hi. unfold info_of. destruct (Nat.eqb_spec i k) as [->|Hik]; [rewrite V1; exact Hv|]. rewrite V2 by exact Hik.
    cbn [f_heap]. unfold view. destruct (h_arr (var st i)) as [b|] eqn:Eb; [|reflexivity].
    destruct Hc as [(-> & _)|[(a & Ea & Ea' & Ll & La & Lh & Lar & Hf & Hp & Ho)|(Ea' & Lh & Ho)]]; [reflexivity| |].
    + destruct (Nat.eq_dec b a) as [->|Hb]; [|now rewrite Ho].
      destruct (Hsh i k a Hi Hk Hik Eb Ea) as [U|[F|[_ L]]]; [now elim Uk| |eapply firstn_shorter; eassumption].
      unfold full_in in F. rewrite Ea in F. eapply firstn_shorter; [|exact Hp].
      specialize (Hok i). unfold ok_header in Hok. rewrite Eb in Hok. lia.
    + rewrite Ho; [reflexivity|]. specialize (Hok i). unfold ok_header in Hok. rewrite Eb in Hok. apply Hok.
Qed.

Lemma infos_error : forall st i, i < length (f_vars st) -> nth_error (infos st) i = Some (info_of st i).
Proof.
  intros st i Hi. unfold infos, info_of, var. rewrite nth_error_map. now rewrite (nth_error_nth' _ nil_slice Hi).
Qed.
Lemma list_ext : forall (l m : list (list string)), length l = length m ->
  (forall i, i < length l -> nth_error l i = nth_error m i) -> l = m.
Proof.
  induction l as [|x l IH]; intros [|y m] L H; try discriminate L; [reflexivity|].
  pose proof (H 0 ltac:(cbn; lia)) as E. cbn in E. injection E as ->. f_equal. apply IH; [now injection L|].
  intros i Hi. apply (H (S i)). cbn [length]. lia.
Qed.
Lemma change_length : forall ts k f, length (change k f ts) = length ts.
Proof. induction ts as [|t ts IH]; intros [|k] f; cbn [change length]; auto. Qed.
Lemma change_error : forall ts k f i, nth_error (change k f ts) i =
  if i =? k then option_map f (nth_error ts i) else nth_error ts i.
Proof.
  induction ts as [|t ts IH]; intros k f i.
  - destruct k; cbn [change]; destruct i; cbn [nth_error option_map]; now destruct (_ =? _).
  - destruct k as [|k]; destruct i as [|i]; cbn [change nth_error Nat.eqb option_map]; auto.
Qed.
Lemma change_out : forall ts k f, length ts <= k -> change k f ts = ts.
Proof. induction ts as [|t ts IH]; intros [|k] f H; cbn [change length] in *; auto; [lia|]. f_equal. apply IH. lia. Qed.
Lemma infos_length : forall st, length (infos st) = length (f_vars st).
Proof. intros st. apply map_length. Qed.

Lemma add_infos : forall grow st k x c cs, k < length (f_vars st) -> uses k c = true -> inv st (c :: cs) ->
  infos (add grow st k x) = change k (fun t => t ++ x) (infos st).
Proof.
  intros grow st k x c cs Hk Hu Hi. destruct (add_inv grow st k x c cs Hk Hu Hi) as (_ & L & G).
  apply list_ext; [rewrite change_length, !infos_length; exact L|]. intros i Li. rewrite infos_length, L in Li.
  rewrite infos_error by now rewrite L. rewrite change_error, infos_error by exact Li. rewrite G by exact Li.
  destruct (Nat.eqb_spec i k) as [->|]; reflexivity.
Qed.
Lemma nil_ok : forall h, ok_header h nil_slice. Proof. intros h. reflexivity. Qed.

Lemma app_var : forall vs s h i, var (FSt h (vs ++ [s])) i = if i =? length vs then s else nth i vs nil_slice.
Proof.
  intros vs s h i. unfold var. cbn [f_vars]. destruct (Nat.eqb_spec i (length vs)) as [->|Hi].
  - rewrite app_nth2, Nat.sub_diag by lia. reflexivity.
  - destruct (Nat.lt_ge_cases i (length vs)); [now apply app_nth1|].
    rewrite app_nth2 by lia. rewrite (nth_overflow vs) by lia. destruct (i - length vs) as [|[|m]] eqn:E; [lia|reflexivity|reflexivity].
Qed.

Lemma step_inv : forall grow challenge st c cs, inv st (c :: cs) ->
  match c with Copy k => full st k \/ unused k cs \/ unused (length (f_vars st)) cs | _ => True end ->
  inv (fstep grow challenge st c) cs /\ infos (fstep grow challenge st c) = expect challenge (infos st) c.
Proof.
  intros grow challenge st c cs Hi Hc. pose proof Hi as [Hok Hsh].
  assert (T : forall i, unused i (c :: cs) -> unused i cs) by (intros i; apply unused_tail).
  assert (Keep : inv st cs).
  { split; [exact Hok|]. intros i j a Li Lj Hn Ei Ej. destruct (Hsh i j a Li Lj Hn Ei Ej) as [U|[F|[U L]]]; auto. }
  destruct c as [l|k|k x|k]; cbn [fstep expect].
  - (* Init *)
    destruct (go_append grow (f_heap st) nil_slice l) as [h s] eqn:E.
    destruct (append_spec _ _ _ _ _ _ (nil_ok _) E) as (Hok' & Hv & Hx).
    assert (Hh : forall b, b < length (f_heap st) -> nth b h [] = nth b (f_heap st) []).
    { destruct Hx as [(-> & _)|[(a & Ea & _)|(_ & _ & Ho)]]; [auto|discriminate Ea|exact Ho]. }
    assert (Hs : forall b, h_arr s = Some b -> length (f_heap st) <= b).
    { intros b Eb. destruct Hx as [(_ & -> & _)|[(a & Ea & _)|(Ea & _)]]; [discriminate Eb|discriminate Ea|].
      assert (b = length (f_heap st)) by congruence. lia. }
    assert (Hl : length (f_heap st) <= length h).
    { destruct Hx as [(-> & _)|[(a & Ea & _)|(_ & Lh & _)]]; [lia|discriminate Ea|lia]. }
    assert (Lo : forall m d, h_arr (var st m) = Some d -> d < length (f_heap st)).
    { intros m d Em. specialize (Hok m). unfold ok_header in Hok. now rewrite Em in Hok. }
    split; [split|].
    + intros i. rewrite app_var. cbn [f_heap]. destruct (Nat.eqb_spec i (length (f_vars st))); [exact Hok'|].
      specialize (Hok i). fold (var st i). unfold ok_header in *. destruct (h_arr (var st i)) as [b|] eqn:Eb; [|exact Hok].
      rewrite Hh by (eapply Lo, Eb). lia.
    + cbn [f_vars]. intros i j a. rewrite app_length. cbn [length]. intros Li Lj Hn. rewrite !app_var. cbn [f_heap].
      destruct (Nat.eqb_spec i (length (f_vars st))) as [->|Hni], (Nat.eqb_spec j (length (f_vars st))) as [->|Hnj].
      * now elim Hn.
      * intros Ei Ej. apply Hs in Ei. apply (Lo j) in Ej. lia.
      * intros Ei Ej. apply Hs in Ej. apply (Lo i) in Ei. lia.
      * fold (var st i) (var st j). intros Ei Ej.
        destruct (Hsh i j a ltac:(lia) ltac:(lia) Hn Ei Ej) as [U|[F|[U L]]]; [left; now apply T| |right; right; split; [now apply T|exact L]].
        right. left. unfold full_in in *. rewrite Ej in *. rewrite Hh; [exact F|]. eapply Lo, Ej.
    + unfold infos. cbn [f_heap f_vars]. rewrite map_app. cbn [map]. f_equal; [|f_equal; exact Hv].
      apply map_ext_in. intros t It. destruct (In_nth _ _ nil_slice It) as (m & Lm & Em).
      change (nth m (f_vars st) nil_slice) with (var st m) in Em.
      unfold view. destruct (h_arr t) as [b|] eqn:Eb; [|reflexivity]. rewrite Hh; [reflexivity|]. apply (Lo m). now rewrite Em.
  - (* Copy *)
    destruct (Nat.ltb_spec k (length (f_vars st))) as [Lk|Lk].
    + assert (Uk : ~ unused k (Copy k :: cs)).
      { intros U. specialize (U (Copy k) (or_introl eq_refl)). cbn [uses] in U. rewrite Nat.eqb_refl in U. discriminate. }
      split; [split|].
      * intros i. rewrite app_var. cbn [f_heap]. destruct (i =? length (f_vars st)); apply Hok.
      * cbn [f_vars]. intros i j a. rewrite app_length. cbn [length]. intros Li Lj Hn. rewrite !app_var. cbn [f_heap].
        assert (Hc' : full_in (f_heap st) (var st k) \/ unused k cs \/ unused (length (f_vars st)) cs) by exact Hc.
        destruct (Nat.eqb_spec i (length (f_vars st))) as [->|Hni], (Nat.eqb_spec j (length (f_vars st))) as [->|Hnj].
        -- now elim Hn.
        -- fold (var st j). intros Ei Ej. destruct (Nat.eq_dec j k) as [->|Hjk].
           ++ destruct Hc' as [F|[U|U]]; auto.
           ++ destruct (Hsh k j a Lk ltac:(lia) ltac:(lia) Ei Ej) as [U|[F|[U _]]]; [left; now apply T|auto|now elim Uk].
        -- fold (var st i). intros Ei Ej. destruct (Nat.eq_dec i k) as [->|Hik].
           ++ destruct Hc' as [F|[U|U]]; auto.
           ++ destruct (Hsh i k a ltac:(lia) Lk Hik Ei Ej) as [U|[F|[U L]]]; [now elim Uk|auto|].
              right. right. split; [now apply T|exact L].
        -- fold (var st i) (var st j). intros Ei Ej.
           destruct (Hsh i j a ltac:(lia) ltac:(lia) Hn Ei Ej) as [U|[F|[U L]]]; [left; now apply T|auto|].
           right. right. split; [now apply T|exact L].
      * rewrite infos_error by exact Lk. unfold infos, info_of. cbn [f_heap f_vars]. now rewrite map_app.
    + split; [exact Keep|]. rewrite (proj2 (nth_error_None (infos st) k)); [reflexivity|]. now rewrite infos_length.
  - destruct (Nat.ltb_spec k (length (f_vars st))) as [Lk|Lk].
    + assert (Hu : uses k (Add k x) = true) by (cbn; apply Nat.eqb_refl).
      split; [now apply (add_inv grow st k x _ cs Lk Hu Hi)|]. now apply (add_infos grow st k x _ cs Lk Hu).
    + split; [exact Keep|]. symmetry. apply change_out. now rewrite infos_length.
  - destruct (Nat.ltb_spec k (length (f_vars st))) as [Lk|Lk].
    + assert (Hu : uses k (Draw k) = true) by (cbn; apply Nat.eqb_refl).
      split; [now apply (add_inv grow st k _ _ cs Lk Hu Hi)|].
      rewrite (add_infos grow st k _ _ cs Lk Hu Hi). apply list_ext; [now rewrite !change_length|].
      intros i _. rewrite !change_error. destruct (Nat.eqb_spec i k) as [->|]; [|reflexivity].
      now rewrite infos_error.
    + split; [exact Keep|]. symmetry. apply change_out. now rewrite infos_length.
Qed.

(** ** C130 *)
(** as long as the copies are careful, every variable has its own history, at every moment of the program *)
Theorem C130_own_history_partial : forall grow challenge h before after,
  careful grow challenge (FSt h []) (before ++ after) ->
  infos (frun grow challenge (FSt h []) before) = fold_left (expect challenge) before [].
Proof.
  intros grow challenge h before after.
  assert (I0 : inv (FSt h []) (before ++ after)).
  { split; [intros k; unfold var; cbn [f_vars]; destruct k; apply nil_ok|]. cbn [f_vars length]. intros i j a Hi. lia. }
  change (@nil (list string)) with (infos (FSt h [])). revert I0. generalize (FSt h []). unfold frun.
  induction before as [|c before IH]; intros st I0 Hc; cbn [app fold_left] in *; [reflexivity|].
  cbn [careful] in Hc. destruct Hc as [Hc Hr]. destruct (step_inv grow challenge st c _ I0 Hc) as [I1 E]. rewrite <- E. now apply IH.
Qed.

(** transcripts that all come from InitTranscript, as everywhere in /repo, never get in each other's way *)
Theorem C130_without_copies : forall grow challenge h cs, (forall k, ~ In (Copy k) cs) ->
  infos (frun grow challenge (FSt h []) cs) = fold_left (expect challenge) cs [].
Proof.
  intros grow challenge h cs H. apply (C130_own_history_partial grow challenge h cs []). rewrite app_nil_r.
  revert H. generalize (FSt h []). induction cs as [|c cs IH]; intros st H; [exact I|].
  cbn [careful]. split; [|apply IH; intros k I; apply (H k); now right].
  destruct c as [l|k|k x|k]; try exact I. exfalso. apply (H k). now left.
Qed.

(** a copy with spare capacity that is used on both sides: the first variable shows what was appended to
    the second *)
Theorem C130_spare_overwrites : forall grow challenge h a n x y, n < length (nth a h []) -> a < length h ->
  let s := Hdr (Some a) n in
  let st := frun grow challenge (FSt h [s]) [Copy 0; Add 0 [x]; Add 1 [y]] in
  infos st = [view h s ++ [y]; view h s ++ [y]].
Proof.
  intros grow challenge h a n x y Hn Ha. cbv zeta. unfold frun. cbn [fold_left fstep f_vars length Nat.ltb Nat.leb].
  unfold var. cbn [f_vars app nth]. unfold add, var. cbn [f_vars f_heap nth].
  destruct (go_append grow h (Hdr (Some a) n) [x]) as [h1 s1] eqn:E1.
  assert (Ok : ok_header h (Hdr (Some a) n)) by (cbn; lia).
  destruct (append_spec _ _ _ _ _ _ Ok E1) as (Ok1 & V1 & C1).
  unfold go_append in E1. cbn [h_arr h_len length] in E1. destruct (Nat.leb_spec (n + 1) (length (nth a h []))); [|lia].
  injection E1 as <- <-. cbn [f_heap f_vars put firstn skipn app nth length Nat.ltb Nat.leb].
  set (arr := nth a h []) in *.
  assert (L1 : length (firstn n arr) = n) by (rewrite firstn_length; lia).
  unfold go_append. cbn [h_arr h_len length]. rewrite set_arr_same by exact Ha.
  set (arr1 := firstn n arr ++ x :: skipn (n + 1) arr).
  assert (L2 : length arr1 = length arr) by (unfold arr1; rewrite !app_length, L1; cbn [length]; rewrite skipn_length; lia).
  rewrite L2. destruct (Nat.leb_spec (n + 1) (length arr)); [|lia].
  assert (F : firstn n arr1 = firstn n arr).
  { unfold arr1. pose proof (firstn_exact (firstn n arr) [] ([x] ++ skipn (n + 1) arr) n L1) as Ex.
    cbn [length app] in Ex. rewrite Nat.add_0_r, app_nil_r in Ex. exact Ex. }
  rewrite F. unfold infos, put. cbn [f_heap f_vars firstn skipn app map].
  assert (La : a < length (set_arr h a arr1)) by now rewrite set_arr_length.
  unfold view. cbn [h_arr h_len]. rewrite set_arr_same by exact La. fold arr.
  assert (Ey : firstn (n + 1) (firstn n arr ++ y :: skipn (n + 1) arr1) = firstn n arr ++ [y])
    by exact (firstn_exact (firstn n arr) [y] (skipn (n + 1) arr1) n L1).
  now rewrite Ey.
Qed.

(** the claim without the condition is false: SetupTranscript (zkmultiswap/common.go:94-98) with the growth
    of Go's append, which doubles, a copy, and one more string for each of the two *)
Definition doubled (c need : nat) : nat := Nat.max need (2 * c) - need.
Theorem C130_own_history_refuted : exists challenge cs,
  infos (frun doubled challenge (FSt [] []) cs) <> fold_left (expect challenge) cs [].
Proof.
  exists (fun _ => "c"%string), [Init ["g"; "n"]; Add 0 ["7"]; Copy 0; Add 0 ["a"]; Add 1 ["b"]]%string.
  vm_compute. discriminate.
Qed.

(** ** cases *)
(** after SetupTranscript and one challenge the slice is full, and a copy may be used on both sides; the
    copy taken before that is not used again *)
Example C130_case : let ch := fun l : list string => String.concat "-" l in
  let cs := [Init ["g"; "n"]; Add 0 ["7"]; Copy 0; Draw 0; Copy 0; Draw 0; Add 2 ["b"]]%string in
  careful doubled ch (FSt [["x"%string]] []) cs /\
  infos (frun doubled ch (FSt [["x"%string]] []) cs) =
    [["g"; "n"; "7"; "g-n-7"; "g-n-7-g-n-7"]; ["g"; "n"; "7"]; ["g"; "n"; "7"; "g-n-7"; "b"]]%string.
Proof.
  cbv zeta. split; [|vm_compute; reflexivity]. cbn [careful fstep f_vars]. repeat split.
  - right. right. cbn. intros c H. repeat (destruct H as [<-|H]; [reflexivity|]). destruct H.
  - left. vm_compute. reflexivity.
Qed.
(** two transcripts from InitTranscript, used in turns *)
Example C130_without_copies_case : let ch := fun l : list string => String.concat "-" l in
  let cs := [Init ["g"; "n"]; Init ["g"; "n"]; Add 0 ["7"]; Add 1 ["8"]; Draw 0; Draw 1]%string in
  (forall k, ~ In (Copy k) cs) /\
  infos (frun doubled ch (FSt [] []) cs) = [["g"; "n"; "7"; "g-n-7"]; ["g"; "n"; "8"; "g-n-8"]]%string.
Proof.
  cbv zeta. split; [|vm_compute; reflexivity]. intros k H. repeat (destruct H as [H|H]; [discriminate H|]). destruct H.
Qed.
(** a slice of three strings with one cell to spare *)
Example C130_spare_case : let h := [["g"; "n"; "7"; ""]]%string in
  3 < length (nth 0 h []) /\ 0 < length h /\
  infos (frun doubled (fun _ => ""%string) (FSt h [Hdr (Some 0) 3]) [Copy 0; Add 0 ["a"]; Add 1 ["b"]]%string) =
    [["g"; "n"; "7"; "b"]; ["g"; "n"; "7"; "b"]]%string.
Proof. cbv zeta. split; [cbn; lia|]. split; [cbn; lia|]. vm_compute. reflexivity. Qed.

Print Assumptions C130_own_history_partial.
Print Assumptions C130_without_copies.
Print Assumptions C130_spare_overwrites.
Print Assumptions C130_own_history_refuted.
