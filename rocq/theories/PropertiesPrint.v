(** C134: the text PrintTable prints determines the table. C135: the text Transcript.Print prints does not determine
    the transcript; it does when no string has a line break. *)
From Coq Require Import ZArith Ascii String List Lia.
From Verif Require Import GoBig GoBigFacts StrFacts Spec TableModel TableProofs PropertiesInt4 PrintModel.
Import ListNotations.
Open Scope string_scope.
Open Scope nat_scope.
Open Scope string_scope.

Lemma cancel : forall a x y : string, a ++ x = a ++ y -> x = y.
Proof. induction a as [|c a IH]; intros x y E; [exact E|]. cbn in E. injection E as E. now apply IH. Qed.

(** ** C134 *)
(** the two lines of row i as they stand in the output *)
Definition row_text (i b n : Z) : string :=
  "BaseString " ++ dec i ++ "  = "" " ++ dec b ++ " """ ++ String newline ("n " ++ dec i ++ "  =  " ++ dec n ++ String newline "").
Fixpoint rows_text (i : Z) (rows : list (Z * Z)) : string :=
  match rows with [] => "" | (b, n) :: r => row_text i b n ++ rows_text (i + 1) r end.

Lemma row_lines : forall i b n r,
  println ["BaseString"; dec i; " = """; dec b; """"] ++ println ["n"; dec i; " = "; dec n] ++ r = row_text i b n ++ r.
Proof.
  intros i b n r. unfold println, row_text. cbn [String.concat].
  repeat first [rewrite app_assoc_s | progress cbn [append]]. reflexivity.
Qed.
Lemma row_cut : forall i b n r b' n' r', row_text i b n ++ r = row_text i b' n' ++ r' -> b = b' /\ n = n' /\ r = r'.
Proof.
  assert (D : forall a, a = " "%char \/ a = newline -> forall x, lacks a (dec x)).
  { intros a H x. apply dec_lacks; destruct H as [->| ->]; try discriminate; unfold is_digit; cbn; lia. }
  intros i b n r b' n' r' E. unfold row_text in E. repeat first [rewrite app_assoc_s in E | progress cbn [append] in E].
  injection E as E. apply cancel in E. injection E as E.
  apply cut_at in E; [|apply D; now left..]. destruct E as [Eb E]. injection E as E. apply cancel in E. injection E as E.
  apply cut_at in E; [|apply D; now right..]. destruct E as [En Er]. split; [now apply dec_inj|]. split; [now apply dec_inj|exact Er].
Qed.
Lemma rows_cut : forall rows rows' i, rows_text i rows = rows_text i rows' -> rows = rows'.
Proof.
  induction rows as [|[b n] rows IH]; intros [|[b' n'] rows'] i E; cbn [rows_text] in E; [reflexivity|discriminate E..|].
  apply row_cut in E. destruct E as (-> & -> & E). f_equal. exact (IH _ _ E).
Qed.
Lemma print_rows_text : forall bases ns i, List.length bases <= List.length ns -> print_rows i bases ns = (rows_text i (combine bases ns), Ret tt).
Proof.
  induction bases as [|b bases IH]; intros [|n ns] i L; cbn [List.length] in L; [reflexivity..|lia|].
  cbn [print_rows combine rows_text]. rewrite IH by lia. f_equal. apply row_lines.
Qed.
Lemma combine_inj : forall (l m l' m' : list Z), List.length l = List.length m -> List.length l' = List.length m' -> combine l m = combine l' m' -> l = l' /\ m = m'.
Proof.
  induction l as [|a l IH]; intros [|b m] [|a' l'] [|b' m'] L L' E; try discriminate; [split; reflexivity|].
  cbn in *. injection E as -> -> E. destruct (IH m l' m') as [-> ->]; [congruence..|]. split; reflexivity.
Qed.

(** two lines for each row, in order; a table with fewer positions than bases makes it panic *)
Theorem C134_text : forall t,
  (List.length (pt_base t) <= List.length (pt_n t) -> PrintTable t = (rows_text 0 (combine (pt_base t) (pt_n t)), Ret tt)) /\
  (List.length (pt_n t) < List.length (pt_base t) -> snd (PrintTable t) = Panic).
Proof.
  intros [bases ns]. unfold PrintTable. cbn [pt_base pt_n]. split; [apply print_rows_text|]. generalize 0%Z.
  revert ns. induction bases as [|b bases IH]; intros ns i L; cbn [List.length] in L; [lia|]. destruct ns as [|n ns]; [reflexivity|].
  cbn [print_rows List.length] in *. specialize (IH ns (i + 1)%Z ltac:(lia)). now destruct (print_rows (i + 1) bases ns).
Qed.
(** the text determines the table *)
Theorem C134_determines : forall t t', List.length (pt_base t) = List.length (pt_n t) -> List.length (pt_base t') = List.length (pt_n t') ->
  fst (PrintTable t) = fst (PrintTable t') -> t = t'.
Proof.
  intros t t' L L' E. rewrite (proj1 (C134_text t)), (proj1 (C134_text t')) in E by lia. cbn [fst] in E. apply rows_cut in E.
  destruct (combine_inj _ _ _ _ L L' E) as [E1 E2]. destruct t, t'. cbn in *. congruence.
Qed.
(** ... for every table GenPreTable makes, whatever it was made of *)
Theorem C134_generated : forall base N bitLen size t base' N' bitLen' size' t', (0 < N)%Z -> (0 < N')%Z ->
  GenPreTable base N bitLen size = Ret t -> GenPreTable base' N' bitLen' size' = Ret t' ->
  snd (PrintTable t) = Ret tt /\ (fst (PrintTable t) = fst (PrintTable t') -> t = t').
Proof.
  intros base N bitLen size t base' N' bitLen' size' t' HN HN' E E'.
  destruct (GenPreTable_ok base N bitLen size t HN E) as (L & _). destruct (GenPreTable_ok base' N' bitLen' size' t' HN' E') as (L' & _).
  split; [rewrite (proj1 (C134_text t)) by lia; reflexivity|]. now apply C134_determines.
Qed.
Example C134_case : exists t, GenPreTable 3 1000003 20 2 = Ret t /\
  fst (PrintTable t) = "BaseString 0  = "" 3 """ ++ String newline ("n 0  =  0" ++ String newline (
    "BaseString 1  = "" 96172 """ ++ String newline ("n 1  =  10" ++ String newline ""))) /\
  snd (PrintTable {| pt_base := [3; 5]; pt_n := [0] |}%Z) = Panic.
Proof. eexists. split; [vm_compute; reflexivity|]. split; vm_compute; reflexivity. Qed.

(** ** C135 *)
Fixpoint breaks (s : string) : nat := match s with EmptyString => 0 | String c r => (if ascii_dec c newline then 1 else 0) + breaks r end.
Lemma breaks_app : forall a b, breaks (a ++ b) = breaks a + breaks b.
Proof. induction a as [|c a IH]; intros b; [reflexivity|]. cbn [append breaks]. rewrite IH. lia. Qed.
Lemma lacks_breaks : forall s, lacks newline s <-> breaks s = 0.
Proof.
  induction s as [|c s IH]; [split; intros _; [reflexivity|exact I]|]. cbn [lacks breaks]. destruct (ascii_dec c newline) as [E|E].
  - split; [intros [K _]; contradiction|discriminate].
  - rewrite IH. cbn. tauto.
Qed.
Definition info_text (i : Z) (s : string) : string := "Info[ " ++ dec i ++ " ] =  " ++ s ++ String newline "".
Lemma info_line : forall i s r, println ["Info["; dec i; "] = "; s] ++ r = info_text i s ++ r.
Proof.
  intros i s r. unfold println, info_text. cbn [String.concat]. repeat first [rewrite app_assoc_s | progress cbn [append]]. reflexivity.
Qed.
Lemma dec_unbroken : forall x, lacks newline (dec x).
Proof. intros x. apply dec_lacks; try discriminate. unfold is_digit. cbn. lia. Qed.
Lemma infos_breaks : forall l i, breaks (print_infos i l) = List.length l + list_sum (map breaks l).
Proof.
  induction l as [|s l IH]; intros i; [reflexivity|]. cbn [print_infos]. rewrite info_line. unfold info_text. rewrite !breaks_app, IH.
  rewrite (proj1 (lacks_breaks _) (dec_unbroken i)). change (breaks (String newline "")) with 1. change (breaks "Info[ ") with 0. change (breaks " ] =  ") with 0.
  cbn [List.length map list_sum fold_right]. unfold list_sum. cbn [fold_right]. lia.
Qed.
Lemma infos_cut : forall l l' i, Forall (lacks newline) l -> Forall (lacks newline) l' -> print_infos i l = print_infos i l' -> l = l'.
Proof.
  induction l as [|s l IH]; intros [|s' l'] i F F' E; [reflexivity|discriminate E..|].
  cbn [print_infos] in E. rewrite !info_line in E. unfold info_text in E. repeat first [rewrite app_assoc_s in E | progress cbn [append] in E].
  injection E as E. apply cancel in E. injection E as E. inversion_clear F. inversion_clear F'. apply cut_at in E; [|assumption..].
  destruct E as [-> E]. f_equal. eapply IH; eassumption.
Qed.
Lemma unbroken : forall l, list_sum (map breaks l) = 0 <-> Forall (lacks newline) l.
Proof.
  induction l as [|s l IH]; [split; [constructor|reflexivity]|]. cbn. rewrite Forall_cons_iff, <- IH, lacks_breaks. unfold list_sum. lia.
Qed.

(** Full statement: different transcripts are printed differently. Refuted: a string may hold a line break followed
    by what the next line begins with. *)
Theorem C135_print_refuted : exists l l', l <> l' /\ List.length l = List.length l' /\ Print l = Print l'.
Proof.
  exists ["a" ++ String newline "Info[ 1 ] =  b"; "c"], ["a"; "b" ++ String newline "Info[ 1 ] =  c"].
  split; [discriminate|]. split; vm_compute; reflexivity.
Qed.
(** A transcript without line breaks is printed like no other, with or without line breaks. Missing: the others. *)
Theorem C135_print_partial : forall l l', Forall (lacks newline) l -> Print l = Print l' -> l = l'.
Proof.
  intros l l' F E. unfold Print in E.
  assert (H : forall n r, println ["The transcript has "; dec n; "strings as info."] ++ r =
    "The transcript has  " ++ dec n ++ String " " ("strings as info." ++ String newline r)).
  { intros n r. unfold println. cbn [String.concat]. repeat first [rewrite app_assoc_s | progress cbn [append]]. reflexivity. }
  rewrite !H in E. apply cancel in E. apply cut_at in E; [|apply dec_lacks; try discriminate; unfold is_digit; cbn; lia..].
  destruct E as [E1 E2]. apply dec_inj in E1. apply cancel in E2. injection E2 as E2.
  pose proof (f_equal breaks E2) as B. rewrite !infos_breaks in B. pose proof (proj2 (unbroken l) F) as B0.
  assert (F' : Forall (lacks newline) l') by (apply unbroken; lia). eapply infos_cut; eassumption.
Qed.
Example C135_case : Forall (lacks newline) ["PoKE"; "12"; ""] /\
  Print ["PoKE"; "12"] = "The transcript has  2 strings as info." ++ String newline ("Info[ 0 ] =  PoKE" ++ String newline ("Info[ 1 ] =  12" ++ String newline "")).
Proof. split; [repeat constructor; discriminate|]. vm_compute. reflexivity. Qed.

Print Assumptions C134_text.
Print Assumptions C134_determines.
Print Assumptions C134_generated.
Print Assumptions C135_print_refuted.
Print Assumptions C135_print_partial.
