(** Straight-line code over pointers to big integers that borrows temporaries from a shared pool
    (proof/cache.go:11-14), the way proof/range_proof.go, proof/zkaop.go and proof/parameters.go are written.

    Two semantics. [exec] is the machine: cells, a pool of returned cells from which Get takes any cell, with any
    content, or a new one; other goroutines may act between any two instructions (env). [aexec] is the reading a
    reviewer has in mind: every New and Get gives a cell of its own. It also watches the discipline: it gets stuck
    when a cell is used after it was put back, put back twice, or when an unset variable is used. [sim_exec]: code
    that does not get stuck behaves on the machine as it reads. *)
From Coq Require Import ZArith Bool String List Lia.
From Verif Require Import GoBig.
Import ListNotations.

Definition var := string.
(** methods of big.Int used by the code; a Ret None is a nil result *)
Inductive op :=
| OSet | ONeg | OAdd | OSub | OMul | OMod | OLsh (k : Z) | OAddC (z : Z) | OConst (z : Z)
| OExp            (* a.Exp(b, e, n), result not used *)
| OExpUsed        (* the result is used as an operand: nil panics *)
| OInverse
| OPow (z : Z)    (* a.Exp(z, e, nil), e not negative *)
| OExpC (z : Z)   (* a.Exp(b, z, n), result not used *)
| OChallenge.     (* new(big.Int).SetBytes(hash of the arguments) *)

Inductive instr :=
| INew (x : var)                                  (* x := new(big.Int) *)
| IGet (x : var)                                  (* x := iPool.Get() *)
| IDefer (x : var)                                (* defer iPool.Put(x) *)
| IAlias (x y : var)                              (* x = y, the pointer *)
| IOp (d : var) (o : op) (args : list var)        (* d.o(args): d keeps its value when the result is nil *)
| INewOp (x : var) (o : op) (args : list var)     (* x = new(big.Int).o(args): x is nil when the result is *)
| IDraw (x lmt : var)                             (* x, err = rand.Int(lmt); if err != nil return *)
| ISquares (x0 x1 x2 n : var)                     (* x, err = ThreeSquares(n); if err != nil return *)
| IOut (k : string) (args : list var)             (* the hash of the arguments, as bytes *)
| IFrame (l : list instr).                        (* a function call: the deferred Puts run when it ends *)

Section Lang.
Variable interp : op -> list Z -> outcome (option Z).
(** the n-th draw below a limit, the result of ThreeSquares, the hash of a list of numbers *)
Variable coin : nat -> Z -> option Z.
Variable squares : Z -> option (Z * Z * Z).
Variable hash : list Z -> string.
(** what the n-th Get finds in the cell *)
Variable junk : nat -> Z.

(** ** The machine *)
Record rstate := { heap : nat -> Z; next : nat; pool : list nat; mine : list nat; renv : var -> option nat;
  rdraws : nat; rgets : nat; routs : list (string * string); tick : nat; rdefers : list (list (option nat)) }.
Inductive rres := RDone (s : rstate) | RErr (s : rstate) | RCrash.
(** which cell the n-th Get takes *)
Variable pick : nat -> nat.
(** other goroutines, at a tick; they see the whole state *)
Variable env : rstate -> (nat -> Z) * nat * list nat.

Definition rset (s : rstate) h n p mi e : rstate :=
  {| heap := h; next := n; pool := p; mine := mi; renv := e; rdraws := rdraws s; rgets := rgets s; routs := routs s; tick := tick s; rdefers := rdefers s |}.
Definition interfere (s : rstate) : rstate :=
  let '(h, n, p) := env s in
  {| heap := h; next := n; pool := p; mine := mine s; renv := renv s; rdraws := rdraws s; rgets := rgets s; routs := routs s; tick := S (tick s); rdefers := rdefers s |}.
Definition hset (h : nat -> Z) (a : nat) (z : Z) : nat -> Z := fun b => if Nat.eqb b a then z else h b.
Definition eset {A} (e : var -> A) (x : var) (v : A) : var -> A := fun y => if String.eqb y x then v else e y.
Definition ralloc (s : rstate) (x : var) (z : Z) : rstate :=
  rset s (hset (heap s) (next s) z) (S (next s)) (pool s) (next s :: mine s) (eset (renv s) x (Some (next s))).
Definition rnil (s : rstate) (x : var) : rstate := rset s (heap s) (next s) (pool s) (mine s) (eset (renv s) x None).
Fixpoint del (a : nat) (l : list nat) : list nat := match l with [] => [] | b :: r => if Nat.eqb b a then r else b :: del a r end.
Definition rget (s : rstate) (x : var) : rstate :=
  let z := junk (rgets s) in
  let s1 := match nth_error (pool s) (pick (rgets s)) with
            | Some a => rset s (hset (heap s) a z) (next s) (del a (pool s)) (a :: mine s) (eset (renv s) x (Some a))
            | None => ralloc s x z
            end in
  {| heap := heap s1; next := next s1; pool := pool s1; mine := mine s1; renv := renv s1; rdraws := rdraws s1; rgets := S (rgets s1);
     routs := routs s1; tick := tick s1; rdefers := rdefers s1 |}.
Definition rput (s : rstate) (a : nat) : rstate := rset s (heap s) (next s) (a :: pool s) (del a (mine s)) (renv s).
Fixpoint rargs (s : rstate) (l : list var) : option (list Z) :=
  match l with
  | [] => Some []
  | x :: l => match renv s x with None => None | Some a => match rargs s l with None => None | Some vs => Some (heap s a :: vs) end end
  end.
Definition set_draws (s : rstate) : rstate :=
  {| heap := heap s; next := next s; pool := pool s; mine := mine s; renv := renv s; rdraws := S (rdraws s); rgets := rgets s; routs := routs s; tick := tick s; rdefers := rdefers s |}.
Definition radd_out (s : rstate) (k v : string) : rstate :=
  {| heap := heap s; next := next s; pool := pool s; mine := mine s; renv := renv s; rdraws := rdraws s; rgets := rgets s; routs := (k, v) :: routs s; tick := tick s; rdefers := rdefers s |}.
Definition rset_defers (s : rstate) d : rstate :=
  {| heap := heap s; next := next s; pool := pool s; mine := mine s; renv := renv s; rdraws := rdraws s; rgets := rgets s; routs := routs s; tick := tick s; rdefers := d |}.
(** the deferred Puts of the innermost call; a nil in the pool is not modelled, [aexec] is stuck there *)
Fixpoint rput_all (s : rstate) (l : list (option nat)) : option rstate :=
  match l with [] => Some s | Some a :: l => rput_all (rput s a) l | None :: _ => None end.
Definition rleave (s : rstate) : option rstate :=
  match rdefers s with [] => None | d :: rest => rput_all (rset_defers s rest) d end.

Definition simple (i : instr) (s : rstate) : rres :=
  match i with
  | INew x => RDone (ralloc s x 0)
  | IGet x => RDone (rget s x)
  | IDefer x => match rdefers s with [] => RCrash | d :: rest => RDone (rset_defers s ((renv s x :: d) :: rest)) end
  | IAlias x y => RDone (rset s (heap s) (next s) (pool s) (mine s) (eset (renv s) x (renv s y)))
  | IOp d o args =>
      match renv s d, rargs s args with
      | Some a, Some vs =>
          match interp o vs with
          | Ret (Some z) => RDone (rset s (hset (heap s) a z) (next s) (pool s) (mine s) (renv s))
          | Ret None => RDone s
          | _ => RCrash
          end
      | _, _ => RCrash
      end
  | INewOp x o args =>
      match rargs s args with
      | Some vs => match interp o vs with Ret (Some z) => RDone (ralloc s x z) | Ret None => RDone (rnil s x) | _ => RCrash end
      | None => RCrash
      end
  | IDraw x lmt =>
      match rargs s [lmt] with
      | Some [l] => match coin (rdraws s) l with Some z => RDone (ralloc (set_draws s) x z) | None => RErr (set_draws s) end
      | _ => RCrash
      end
  | ISquares x0 x1 x2 n =>
      match rargs s [n] with
      | Some [v] => match squares v with Some (a, b, c) => RDone (ralloc (ralloc (ralloc s x0 a) x1 b) x2 c) | None => RErr s end
      | _ => RCrash
      end
  | IOut k args => match rargs s args with Some vs => RDone (radd_out s k (hash vs)) | None => RCrash end
  | IFrame _ => RCrash
  end.
Fixpoint exec (i : instr) (s : rstate) {struct i} : rres :=
  match i with
  | IFrame l =>
      let fix go (l : list instr) (s : rstate) : rres :=
        match l with [] => RDone s | i :: l => match exec i s with RDone s => go l s | r => r end end in
      match go l (rset_defers s ([] :: rdefers s)) with
      | RDone s => match rleave s with Some s => RDone s | None => RCrash end
      | RErr s => match rleave s with Some s => RErr s | None => RCrash end
      | RCrash => RCrash
      end
  | _ => simple i (interfere s)
  end.
Fixpoint execs (l : list instr) (s : rstate) : rres :=
  match l with [] => RDone s | i :: l => match exec i s with RDone s => execs l s | r => r end end.

(** ** The reading *)
(** Shared: a number of the caller, possibly under several names: never written, never put back *)
Inductive status := Live | Shared | Pooled | Stale.
Inductive aval := AUnknown | ANil | ALoc (i : nat).
Record astate := { store : list (Z * status); aenv : list (var * aval); adraws : nat; agets : nat; aouts : list (string * string); adefers : list (list (option nat)) }.
Fixpoint look (e : list (var * aval)) (x : var) : aval :=
  match e with [] => AUnknown | (y, v) :: e => if String.eqb x y then v else look e x end.
Inductive ares := ADone (s : astate) | AErr (s : astate) | ACrash | AStuck.
(** strict: also reading a cell that was put back and not taken since counts as a violation *)
Variable strict : bool.

Definition aset (s : astate) st e : astate := {| store := st; aenv := e; adraws := adraws s; agets := agets s; aouts := aouts s; adefers := adefers s |}.
Definition aalloc (s : astate) (x : var) (z : Z) : astate := aset s (store s ++ [(z, Live)]) ((x, ALoc (List.length (store s))) :: aenv s).
Definition stale (c : Z * status) : Z * status := match snd c with Pooled => (fst c, Stale) | _ => c end.
Definition aget (s : astate) (x : var) : astate :=
  let s1 := aalloc (aset s (map stale (store s)) (aenv s)) x (junk (agets s)) in
  {| store := store s1; aenv := aenv s1; adraws := adraws s1; agets := S (agets s1); aouts := aouts s1; adefers := adefers s1 |}.
Fixpoint supd {A} (l : list A) (i : nat) (v : A) : list A :=
  match l, i with [], _ => [] | _ :: r, O => v :: r | x :: r, S i => x :: supd r i v end.
Inductive aread := AVals (l : list Z) | ANilRead | ABad.
Definition aread1 (s : astate) (x : var) : aread :=
  match look (aenv s) x with
  | ALoc i => match nth_error (store s) i with Some (z, Live) | Some (z, Shared) => AVals [z] | Some (z, Pooled) => if strict then ABad else AVals [z] | _ => ABad end
  | ANil => ANilRead
  | AUnknown => ABad
  end.
Fixpoint aargs (s : astate) (l : list var) : aread :=
  match l with
  | [] => AVals []
  | x :: l => match aread1 s x with
              | AVals v => match aargs s l with AVals vs => AVals (v ++ vs) | r => r end
              | ANilRead => match aargs s l with ABad => ABad | _ => ANilRead end
              | ABad => ABad
              end
  end.
Definition aset_draws (s : astate) : astate := {| store := store s; aenv := aenv s; adraws := S (adraws s); agets := agets s; aouts := aouts s; adefers := adefers s |}.
Definition aadd_out (s : astate) (k v : string) : astate := {| store := store s; aenv := aenv s; adraws := adraws s; agets := agets s; aouts := (k, v) :: aouts s; adefers := adefers s |}.
Definition aset_defers (s : astate) d : astate := {| store := store s; aenv := aenv s; adraws := adraws s; agets := agets s; aouts := aouts s; adefers := d |}.
Fixpoint aput_all (s : astate) (l : list (option nat)) : option astate :=
  match l with
  | [] => Some s
  | Some i :: l => match nth_error (store s) i with Some (z, Live) => aput_all (aset s (supd (store s) i (z, Pooled)) (aenv s)) l | _ => None end
  | None :: _ => None
  end.
Definition aleave (s : astate) : option astate := match adefers s with [] => None | d :: rest => aput_all (aset_defers s rest) d end.
Definition asimple (i : instr) (s : astate) : ares :=
  match i with
  | INew x => ADone (aalloc s x 0)
  | IGet x => ADone (aget s x)
  | IDefer x =>
      match adefers s, look (aenv s) x with
      | d :: rest, ALoc i => ADone (aset_defers s ((Some i :: d) :: rest))
      | d :: rest, ANil => ADone (aset_defers s ((None :: d) :: rest))
      | _, _ => AStuck
      end
  | IAlias x y => match look (aenv s) y with AUnknown => AStuck | v => ADone (aset s (store s) ((x, v) :: aenv s)) end
  | IOp d o args =>
      match aargs s args with
      | ABad => AStuck
      | r =>
          match look (aenv s) d with
          | AUnknown => AStuck
          | ANil => ACrash
          | ALoc i =>
              match nth_error (store s) i with
              | Some (_, Live) =>
                  match r with
                  | AVals vs =>
                      match interp o vs with
                      | Ret (Some z) => ADone (aset s (supd (store s) i (z, Live)) (aenv s))
                      | Ret None => ADone s
                      | _ => ACrash
                      end
                  | _ => ACrash
                  end
              | _ => AStuck
              end
          end
      end
  | INewOp x o args =>
      match aargs s args with
      | ABad => AStuck
      | ANilRead => ACrash
      | AVals vs => match interp o vs with
                    | Ret (Some z) => ADone (aalloc s x z)
                    | Ret None => ADone (aset s (store s) ((x, ANil) :: aenv s))
                    | _ => ACrash
                    end
      end
  | IDraw x lmt =>
      match aread1 s lmt with
      | AVals [l] => match coin (adraws s) l with Some z => ADone (aalloc (aset_draws s) x z) | None => AErr (aset_draws s) end
      | ANilRead => ACrash
      | _ => AStuck
      end
  | ISquares x0 x1 x2 n =>
      match aread1 s n with
      | AVals [v] => match squares v with Some (a, b, c) => ADone (aalloc (aalloc (aalloc s x0 a) x1 b) x2 c) | None => AErr s end
      | ANilRead => ACrash
      | _ => AStuck
      end
  | IOut k args => match aargs s args with ABad => AStuck | ANilRead => ACrash | AVals vs => ADone (aadd_out s k (hash vs)) end
  | IFrame _ => AStuck
  end.
Fixpoint aexec (i : instr) (s : astate) {struct i} : ares :=
  match i with
  | IFrame l =>
      let fix go (l : list instr) (s : astate) : ares :=
        match l with [] => ADone s | i :: l => match aexec i s with ADone s => go l s | r => r end end in
      match go l (aset_defers s ([] :: adefers s)) with
      | ADone s => match aleave s with Some s => ADone s | None => AStuck end
      | AErr s => match aleave s with Some s => AErr s | None => AStuck end
      | r => r
      end
  | _ => asimple i s
  end.
Fixpoint aexecs (l : list instr) (s : astate) : ares :=
  match l with [] => ADone s | i :: l => match aexec i s with ADone s => aexecs l s | r => r end end.
End Lang.
