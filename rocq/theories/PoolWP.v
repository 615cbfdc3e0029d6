(** A proposition that follows the reading of a program (PoolLang.v) with unknown numbers, branch by branch. *)
From Coq Require Import ZArith Bool String List Lia.
From Verif Require Import GoBig FSModel PokeModel SquaresModel RangeModel PoolLang PoolLangProofs PoolPrograms.
Import ListNotations.

Section WP.
Variable sha : string -> string.
Variable coin : nat -> Z -> option Z.
Variable squares : Z -> option (Z * Z * Z).
Variable junk : nat -> Z.
Variable strict : bool.
Notation interp := (PoolPrograms.interp sha).
Notation hash := (hash_list sha).
Notation asimple := (PoolLang.asimple interp coin squares hash junk strict).
Notation aexec := (PoolLang.aexec interp coin squares hash junk strict).
Notation aexecs := (PoolLang.aexecs interp coin squares hash junk strict).

Definition wp_op (o : op) (vs : list Z) (K : outcome (option Z) -> Prop) : Prop :=
  match o, vs with
  | OSet, [a] => K (Ret (Some a))
  | ONeg, [a] => K (Ret (Some (- a)%Z))
  | OAdd, [a; b] => K (Ret (Some (a + b)%Z))
  | OSub, [a; b] => K (Ret (Some (a - b)%Z))
  | OMul, [a; b] => K (Ret (Some (a * b)%Z))
  | OMod, [a; b] => (forall z, go_mod a b = Ret z -> K (Ret (Some z))) /\ (go_mod a b = Panic -> K Panic)
  | OLsh k, [a] => K (Ret (Some (Z.shiftl a k)))
  | OAddC z, [a] => K (Ret (Some (a + z)%Z))
  | OConst z, [] => K (Ret (Some z))
  | OExp, [b; e; n] => (forall z, big_exp b e n = Some z -> K (Ret (Some z))) /\ (big_exp b e n = None -> K (Ret None))
  | OExpUsed, [b; e; n] => (forall z, big_exp b e n = Some z -> K (Ret (Some z))) /\ (big_exp b e n = None -> K Panic)
  | OInverse, [a; n] => (forall z, mod_inverse a n = Some z -> K (Ret (Some z))) /\ (mod_inverse a n = None -> K (Ret None))
  | OPow z, [e] => K (Ret (Some (z ^ e)%Z))
  | OExpC z, [b; n] => (forall w, big_exp b z n = Some w -> K (Ret (Some w))) /\ (big_exp b z n = None -> K (Ret None))
  | OChallenge, _ => forall c, set_bytes (sha (written (statement_string :: map dec vs))) = c -> K (Ret (Some c))
  | _, _ => K Panic
  end.
Lemma go_mod_not_fuel : forall a b, go_mod a b <> OutOfFuel.
Proof. intros a b. unfold go_mod. destruct (b =? 0)%Z; discriminate. Qed.
Lemma wp_op_ok : forall o vs K, wp_op o vs K -> K (interp o vs).
Proof.
  intros o vs K H. destruct o; cbn [wp_op PoolPrograms.interp] in *; [..|now apply H];
    destruct vs as [|a [|b [|c [|d vs]]]]; try exact H;
    try (destruct (big_exp _ _ _) eqn:E; now apply H); try (destruct (mod_inverse _ _) eqn:E; now apply H).
  destruct (go_mod _ _) eqn:E; [now apply H|now apply H|now apply go_mod_not_fuel in E].
Qed.
Definition wp_simple (i : instr) (s : astate) (K : ares -> Prop) : Prop :=
  match i with
  | IOp d o args =>
      match aargs strict s args with
      | ABad => K AStuck
      | r =>
          match look (aenv s) d with
          | AUnknown => K AStuck
          | ANil => K ACrash
          | ALoc i =>
              match nth_error (store s) i with
              | Some (_, Live) =>
                  match r with
                  | AVals vs =>
                      wp_op o vs (fun v => match v with
                        | Ret (Some z) => K (ADone (aset s (supd (store s) i (z, Live)) (aenv s)))
                        | Ret None => K (ADone s)
                        | _ => K ACrash
                        end)
                  | _ => K ACrash
                  end
              | _ => K AStuck
              end
          end
      end
  | INewOp x o args =>
      match aargs strict s args with
      | ABad => K AStuck
      | ANilRead => K ACrash
      | AVals vs => wp_op o vs (fun v => match v with
                    | Ret (Some z) => K (ADone (aalloc s x z))
                    | Ret None => K (ADone (aset s (store s) ((x, ANil) :: aenv s)))
                    | _ => K ACrash
                    end)
      end
  | IDraw x lmt =>
      match aread1 strict s lmt with
      | AVals [l] => (forall z, coin (adraws s) l = Some z -> K (ADone (aalloc (aset_draws s) x z))) /\ (coin (adraws s) l = None -> K (AErr (aset_draws s)))
      | ANilRead => K ACrash
      | _ => K AStuck
      end
  | ISquares x0 x1 x2 n =>
      match aread1 strict s n with
      | AVals [v] => (forall a b c, squares v = Some (a, b, c) -> K (ADone (aalloc (aalloc (aalloc s x0 a) x1 b) x2 c))) /\ (squares v = None -> K (AErr s))
      | ANilRead => K ACrash
      | _ => K AStuck
      end
  | i => K (asimple i s)
  end.
Lemma wp_simple_ok : forall i s K, wp_simple i s K -> K (asimple i s).
Proof.
  intros i s K H. destruct i as [x|x|x|x y|d o args|x o args|x lmt|x0 x1 x2 n|k args|l]; cbn [wp_simple] in H; try exact H; cbn [PoolLang.asimple].
  - destruct (aargs strict s args); [| |exact H].
    + destruct (look (aenv s) d); try exact H. destruct (nth_error (store s) i) as [[w []]|]; try exact H. apply wp_op_ok in H. destruct (interp o l) as [[z|]| |]; exact H.
    + destruct (look (aenv s) d); try exact H. destruct (nth_error (store s) i) as [[w []]|]; exact H.
  - destruct (aargs strict s args); try exact H. apply wp_op_ok in H. destruct (interp o l) as [[z|]| |]; exact H.
  - destruct (aread1 strict s lmt) as [[|l [|]]| |]; try exact H. destruct (coin (adraws s) l) eqn:E; now apply H.
  - destruct (aread1 strict s n) as [[|v [|]]| |]; try exact H. destruct (squares v) as [[[a b] c]|] eqn:E; now apply H.
Qed.
Definition wp_leave (K : ares -> Prop) (r : ares) : Prop :=
  match r with
  | ADone s => match aleave s with Some s => K (ADone s) | None => K AStuck end
  | AErr s => match aleave s with Some s => K (AErr s) | None => K AStuck end
  | r => K r
  end.
Fixpoint wp (i : instr) (s : astate) (K : ares -> Prop) {struct i} : Prop :=
  match i with
  | IFrame l =>
      (fix go (l : list instr) (s : astate) (K : ares -> Prop) : Prop :=
        match l with [] => K (ADone s) | i :: l => wp i s (fun r => match r with ADone s => go l s K | r => K r end) end) l (aset_defers s ([] :: adefers s)) (wp_leave K)
  | i => wp_simple i s K
  end.
Fixpoint wps (l : list instr) (s : astate) (K : ares -> Prop) : Prop :=
  match l with [] => K (ADone s) | i :: l => wp i s (fun r => match r with ADone s => wps l s K | r => K r end) end.
Lemma wp_frame : forall l s K, wp (IFrame l) s K = wps l (aset_defers s ([] :: adefers s)) (wp_leave K).
Proof. reflexivity. Qed.
Lemma wps_ok : forall l, Forall (fun i => forall s K, wp i s K -> K (aexec i s)) l -> forall s K, wps l s K -> K (aexecs l s).
Proof.
  intros l H. induction H as [|i l Hi Hl IH]; intros s K W; cbn [wps PoolLang.aexecs] in *; [exact W|].
  apply Hi in W. destruct (aexec i s); try exact W. now apply IH.
Qed.
Theorem wp_ok : forall i s K, wp i s K -> K (aexec i s).
Proof.
  induction i as [i NF|l IH] using instr_ind'; intros s K H.
  - destruct i; try exact (wp_simple_ok _ _ _ H). discriminate NF.
  - rewrite wp_frame in H. rewrite aexec_frame. apply (wps_ok l IH) in H. unfold wp_leave in H.
    destruct (aexecs l _) as [s'|s'| |]; try exact H; destruct (aleave s'); exact H.
Qed.
End WP.
