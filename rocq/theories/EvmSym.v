(** Symbolic runs of the machine of EvmModel: stack and memory hold expressions over the call data, addresses
    and jump targets are constants. The result is a tree of decisions and calls; [srun_sound]: whatever the tree
    evaluates to is what the machine does. *)
From Coq Require Import ZArith Bool Lia List.
From Verif Require Import SolModel EvmModel.
Import ListNotations.
Open Scope Z_scope.

Inductive exp :=
| EC (z : Z)                   (* z mod 2^256 *)
| EV (k : nat)                 (* word k returned by the calls so far *)
| ECD (a : Z)                  (* word of the call data at offset a *)
| ESize | EValue
| EGas (k : nat)
| EU (o : op1) (e : exp)
| EB (o : op2) (e1 e2 : exp).
Inductive tree :=
| TRet (d : list (exp * Z)) | TRev (d : list (exp * Z)) | THalt
| TGiveUp | TFuel
| TIf (e : exp) (t f : tree)                                  (* t: e is not zero *)
| TCall (addr : Z) (ws : list exp) (k : nat) (ok fail : tree). (* the result words get the numbers k, k+1, ... *)

Definition smem := list (Z * exp).
Record sstate := SSt { spc : Z; sstk : list exp; smm : smem; stick : nat; sk : nat }.
Inductive sres := SNext (s : sstate) | SDone (t : tree) | SFork (e : exp) (s1 s2 : sstate) | SCall (addr : Z) (ws : list exp) (k : nat) (s1 s2 : sstate).

Definition const (e : exp) : option Z := match e with EC z => Some (z mod W) | _ => None end.
Definition mk1 (o : op1) (e : exp) : exp := match const e with Some a => EC (un o a) | None => EU o e end.
Definition mk2 (o : op2) (e1 e2 : exp) : exp := match const e1, const e2 with Some a, Some b => EC (bin o a b) | _, _ => EB o e1 e2 end.

(** the word at a, if it was stored as a whole *)
Fixpoint slookup (m : smem) (a : Z) : option exp :=
  match m with
  | [] => Some (EC 0)
  | (o, e) :: r => if o =? a then Some e else if (a + 32 <=? o) || (o + 32 <=? a) then slookup r a else None
  end.
Fixpoint sbyte (m : smem) (i : Z) : exp * Z :=
  match m with
  | [] => (EC 0, 0)
  | (o, e) :: r => if (o <=? i) && (i <? o + 32) then (e, i - o) else sbyte r i
  end.
Definition sbytes (m : smem) (a n : Z) : list (exp * Z) := map (fun i => sbyte m (a + Z.of_nat i)) (seq 0 (Z.to_nat n)).
(** n words of zeros from a on *)
Fixpoint szero (m : smem) (a : Z) (n : nat) : smem := match n with O => m | S n => szero ((a, EC 0) :: m) (a + 32) n end.
Fixpoint swords (m : smem) (a : Z) (n : nat) : option (list exp) :=
  match n with
  | O => Some []
  | S n => match slookup m a, swords m (a + 32) n with Some e, Some l => Some (e :: l) | _, _ => None end
  end.
(** words k, k+1, ... (n of them) stored from a on *)
Fixpoint sresult (m : smem) (a : Z) (k n : nat) : smem := match n with O => m | S n => sresult ((a, EV k) :: m) (a + 32) (S k) n end.

Definition giveup : sres := SDone TGiveUp.
Definition rets (addr : Z) : nat := if addr =? 8 then 1%nat else 2%nat.
Definition ready (addr n k : Z) : bool :=
  if addr =? 6 then (128 <=? n) && (64 <=? k)
  else if addr =? 7 then (96 <=? n) && (64 <=? k)
  else (addr =? 8) && (n mod 192 =? 0) && (0 <=? n) && (32 <=? k).

Section Sym.
Variable prg : prog.

Definition mk (s : sstate) (pc : Z) (st : list exp) (m : smem) : sstate := SSt pc st m (S (stick s)) (sk s).
Definition snext (s : sstate) (pc : Z) (st : list exp) (m : smem) : sres :=
  if (length st <=? 1024)%nat then SNext (mk s pc st m) else SDone THalt.
Definition is_dest (d : Z) : bool := match instr_at prg d with Some JUMPDEST => true | _ => false end.
Definition sjump (s : sstate) (d : Z) (st : list exp) : sres := if is_dest d then snext s d st (smm s) else SDone THalt.

Definition sstep (s : sstate) : sres :=
  let go st := snext s (spc s + 1) st (smm s) in
  match instr_at prg (spc s) with
  | None => SDone (TRet [])
  | Some i =>
      match i, sstk s with
      | STOP, _ => SDone (TRet [])
      | BIN o, a :: b :: st => go (mk2 o a b :: st)
      | UN o, a :: st => go (mk1 o a :: st)
      | CALLVALUE, st => go (EValue :: st)
      | CALLDATALOAD, a :: st => match const a with Some a => go (ECD a :: st) | None => giveup end
      | CALLDATASIZE, st => go (ESize :: st)
      | CALLDATACOPY, d :: ESize :: n :: st =>
          match const d, const n with
          | Some d, Some n => if n mod 32 =? 0 then snext s (spc s + 1) st (szero (smm s) d (Z.to_nat (n / 32))) else giveup
          | _, _ => giveup
          end
      | POP, _ :: st => go st
      | MLOAD, a :: st =>
          match const a with
          | Some a => match slookup (smm s) a with Some e => go (e :: st) | None => giveup end
          | None => giveup
          end
      | MSTORE, a :: v :: st => match const a with Some a => snext s (spc s + 1) st ((a, v) :: smm s) | None => giveup end
      | JUMP, d :: st => match const d with Some d => sjump s d st | None => giveup end
      | JUMPI, d :: c :: st =>
          match const c, const d with
          | Some c, Some d => if c =? 0 then go st else sjump s d st
          | None, Some d =>
              if is_dest d && (length st <=? 1024)%nat then SFork c (mk s d st (smm s)) (mk s (spc s + 1) st (smm s)) else giveup
          | _, None => giveup
          end
      | GAS, st => go (EGas (stick s) :: st)
      | JUMPDEST, st => go st
      | PUSH n v, st => if (0 <=? v) && (v <? W) then snext s (spc s + 1 + Z.of_nat n) (EC v :: st) (smm s) else giveup
      | DUP n, st => match nth_error st (n - 1) with Some a => go (a :: st) | None => SDone THalt end
      | SWAP n, a :: st =>
          match nth_error st (n - 1) with
          | Some b => go (b :: firstn (n - 1) st ++ a :: skipn n st)
          | None => SDone THalt
          end
      | RETURN, a :: n :: _ => match const a, const n with Some a, Some n => SDone (TRet (sbytes (smm s) a n)) | _, _ => giveup end
      | REVERT, a :: n :: _ => match const a, const n with Some a, Some n => SDone (TRev (sbytes (smm s) a n)) | _, _ => giveup end
      | STATICCALL, _ :: addr :: a :: n :: d :: k :: st =>
          match const addr, const a, const n, const d, const k with
          | Some addr, Some a, Some n, Some d, Some k =>
              if ready addr n k && (length st <? 1024)%nat then
                match swords (smm s) a (arity addr n) with
                | Some ws =>
                    SCall addr ws (sk s)
                      (SSt (spc s + 1) (EC 1 :: st) (sresult (smm s) d (sk s) (rets addr)) (S (stick s)) (sk s + rets addr))
                      (mk s (spc s + 1) (EC 0 :: st) (smm s))
                | None => giveup
                end
              else giveup
          | _, _, _, _, _ => giveup
          end
      | INVALID, _ => SDone THalt
      | _, _ => giveup
      end
  end.

Fixpoint srun (fuel : nat) (s : sstate) : tree :=
  match fuel with
  | O => TFuel
  | S f =>
      match sstep s with
      | SNext s => srun f s
      | SDone t => t
      | SFork e s1 s2 => TIf e (srun f s1) (srun f s2)
      | SCall addr ws k s1 s2 => TCall addr ws k (srun f s1) (srun f s2)
      end
  end.
End Sym.
Definition sstart : sstate := SSt 0 [] [] 0 0.
