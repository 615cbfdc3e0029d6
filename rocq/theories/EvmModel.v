(** The Ethereum virtual machine, as far as the verifier contract of
    /repo/zkmultiswap/gnark-tests/solidity/solidity_groth16.go:208 (VerifierMetaData.Bin) needs it.

    Words are integers in [0, 2^256), bytes integers in [0, 256). Gas is not accounted for: the run has as much
    as it needs, and GAS answers with an arbitrary word. Instructions the contract does not use are [OTHER]; a run
    that gets to one is [RStuck], which is not a behaviour of the machine. Calls go to the precompiled contracts 6
    (addition), 7 (multiplication) and 8 (pairing check) of EIP-196 and EIP-197, which are parameters. *)
From Coq Require Import ZArith Bool List.
From Verif Require Import SolModel.
Import ListNotations.
Open Scope Z_scope.

Definition W : Z := 2 ^ 256.

(** ** bytes and words *)
(** byte i of a word, the first is the most significant *)
Definition byte_of (w i : Z) : Z := (w / 2 ^ (8 * (31 - i))) mod 256.
Definition be (l : list Z) : Z := fold_left (fun x b => x * 256 + b) l 0.
Definition be_bytes (w : Z) : list Z := map (fun i => byte_of w (Z.of_nat i)) (seq 0 32).
(** word i of a byte string, padded with zeros *)
Definition word_at (l : list Z) (i : nat) : Z := be (map (fun j => nth (32 * i + j) l 0) (seq 0 32)).

(** ** memory: zero at first *)
Definition mem := Z -> Z.
Definition mbytes (m : mem) (a n : Z) : list Z := map (fun i => m (a + Z.of_nat i)) (seq 0 (Z.to_nat n)).
Definition mload (m : mem) (a : Z) : Z := be (mbytes m a 32).
Definition mwrite (m : mem) (a : Z) (l : list Z) : mem :=
  fun i => if (a <=? i) && (i <? a + Z.of_nat (length l)) then nth (Z.to_nat (i - a)) l 0 else m i.
Definition mstore (m : mem) (a v : Z) : mem := fun i => if (a <=? i) && (i <? a + 32) then byte_of v (i - a) else m i.

(** ** instructions *)
Inductive op2 := ADD | MUL | SUB | DIV | MOD | LT | GT | SLT | EQ | AND | OR | SHR.
Inductive op1 := ISZERO | NOT.
Inductive op :=
| STOP | BIN (o : op2) | UN (o : op1) | CALLVALUE | CALLDATALOAD | CALLDATASIZE | CALLDATACOPY | CODECOPY
| POP | MLOAD | MSTORE | JUMP | JUMPI | GAS | JUMPDEST | PUSH (n : nat) (v : Z) | DUP (n : nat) | SWAP (n : nat)
| RETURN | STATICCALL | REVERT | INVALID | OTHER (b : Z).

Definition b2z (b : bool) : Z := if b then 1 else 0.
Definition signed (a : Z) : Z := if a <? 2 ^ 255 then a else a - W.
(** a is on top of the stack, b below it *)
Definition bin (o : op2) (a b : Z) : Z :=
  match o with
  | ADD => (a + b) mod W
  | MUL => (a * b) mod W
  | SUB => (a - b) mod W
  | DIV => if b =? 0 then 0 else a / b
  | MOD => if b =? 0 then 0 else a mod b
  | LT => b2z (a <? b)
  | GT => b2z (b <? a)
  | SLT => b2z (signed a <? signed b)
  | EQ => b2z (a =? b)
  | AND => Z.land a b
  | OR => Z.lor a b
  | SHR => if a <? 256 then b / 2 ^ a else 0
  end.
Definition un (o : op1) (a : Z) : Z := match o with ISZERO => b2z (a =? 0) | NOT => W - 1 - a end.

Definition opcode (b : Z) : op :=
  match b with
  | 0x00 => STOP | 0x01 => BIN ADD | 0x02 => BIN MUL | 0x03 => BIN SUB | 0x04 => BIN DIV | 0x06 => BIN MOD
  | 0x10 => BIN LT | 0x11 => BIN GT | 0x12 => BIN SLT | 0x14 => BIN EQ | 0x15 => UN ISZERO | 0x16 => BIN AND
  | 0x17 => BIN OR | 0x19 => UN NOT | 0x1c => BIN SHR | 0x34 => CALLVALUE | 0x35 => CALLDATALOAD
  | 0x36 => CALLDATASIZE | 0x37 => CALLDATACOPY | 0x39 => CODECOPY | 0x50 => POP | 0x51 => MLOAD | 0x52 => MSTORE
  | 0x56 => JUMP | 0x57 => JUMPI | 0x5a => GAS | 0x5b => JUMPDEST | 0xf3 => RETURN | 0xfa => STATICCALL
  | 0xfd => REVERT | 0xfe => INVALID
  | _ => if (0x80 <=? b) && (b <=? 0x8f) then DUP (Z.to_nat (b - 0x7f))
         else if (0x90 <=? b) && (b <=? 0x9f) then SWAP (Z.to_nat (b - 0x8f)) else OTHER b
  end.

(** ** programs: the instruction at each position that is not inside the operand of a PUSH *)
Inductive prog := PLeaf | PNode (l : prog) (o : option op) (r : prog).
Fixpoint pget (p : prog) (k : positive) : option op :=
  match p, k with
  | PLeaf, _ => None
  | PNode _ o _, xH => o
  | PNode l _ _, xO k => pget l k
  | PNode _ _ r, xI k => pget r k
  end.
Fixpoint pput (p : prog) (k : positive) (o : op) : prog :=
  let '(l, v, r) := match p with PLeaf => (PLeaf, None, PLeaf) | PNode l v r => (l, v, r) end in
  match k with
  | xH => PNode l (Some o) r
  | xO k => PNode (pput l k o) v r
  | xI k => PNode l v (pput r k o)
  end.
(** position 0 has number 1 *)
Definition instr_at (p : prog) (pc : Z) : option op := if pc <? 0 then None else pget p (Z.to_pos (pc + 1)).
Fixpoint scan (fuel : nat) (code : list Z) (pos : positive) (p : prog) : prog :=
  match fuel, code with
  | S f, b :: rest =>
      if (0x60 <=? b) && (b <=? 0x7f) then
        let n := Z.to_nat (b - 0x5f) in
        scan f (skipn n rest) (pos + Pos.of_succ_nat n) (pput p pos (PUSH n (be (firstn n (rest ++ repeat 0 32)))))
      else scan f rest (Pos.succ pos) (pput p pos (opcode b))
  | _, _ => p
  end.
Definition decode (code : list Z) : prog := scan (length code) code 1%positive PLeaf.

(** ** the machine *)
Inductive result :=
| RReturn (data : list Z)      (* RETURN, STOP *)
| RRevert (data : list Z)
| RHalt                        (* exceptional halt: INVALID, stack underflow or overflow, bad jump *)
| RStuck                       (* left the model *)
| ROutOfFuel.
Inductive callres (A : Type) := CUnknown | CFail | COk (ret : A).
Arguments CUnknown {A}. Arguments CFail {A}. Arguments COk {A} ret.

Record state := St { pc : Z; stk : list Z; mm : mem; tick : nat }.

Section Machine.
Variable code : list Z.
Variable prg : prog.                    (* decode code *)
Variable cd : list Z.                   (* call data *)
Variable value : Z.                     (* the ether sent *)
Variable gas : nat -> Z.                (* the answer of GAS in the n-th step *)
Variable pre : Z -> list Z -> callres (list Z).

Definition cdbyte (i : Z) : Z := nth (Z.to_nat i) cd 0.
Definition cdcopy (i n : Z) : list Z := map (fun k => cdbyte (i + Z.of_nat k)) (seq 0 (Z.to_nat n)).

(** to the instruction at pc, with a stack of at most 1024 words *)
Definition next (s : state) (pc : Z) (st : list Z) (m : mem) : state + result :=
  if (length st <=? 1024)%nat then inl (St pc st m (S (tick s))) else inr RHalt.
Definition jump (s : state) (d : Z) (st : list Z) : state + result :=
  match instr_at prg d with Some JUMPDEST => next s d st (mm s) | _ => inr RHalt end.

Definition step (s : state) : state + result :=
  let go st := next s (pc s + 1) st (mm s) in
  match instr_at prg (pc s) with
  | None => inr (RReturn [])                                 (* past the end: STOP *)
  | Some i =>
      match i, stk s with
      | STOP, _ => inr (RReturn [])
      | BIN o, a :: b :: st => go (bin o a b :: st)
      | UN o, a :: st => go (un o a :: st)
      | CALLVALUE, st => go (value :: st)
      | CALLDATALOAD, a :: st => go (be (cdcopy a 32) :: st)
      | CALLDATASIZE, st => go (Z.of_nat (length cd) :: st)
      | CALLDATACOPY, d :: a :: n :: st => next s (pc s + 1) st (mwrite (mm s) d (cdcopy a n))
      | CODECOPY, d :: a :: n :: st =>
          next s (pc s + 1) st (mwrite (mm s) d (map (fun k => nth (Z.to_nat a + k) code 0) (seq 0 (Z.to_nat n))))
      | POP, _ :: st => go st
      | MLOAD, a :: st => go (mload (mm s) a :: st)
      | MSTORE, a :: v :: st => next s (pc s + 1) st (mstore (mm s) a v)
      | JUMP, d :: st => jump s d st
      | JUMPI, d :: c :: st => if c =? 0 then go st else jump s d st
      | GAS, st => go (gas (tick s) mod W :: st)
      | JUMPDEST, st => go st
      | PUSH n v, st => next s (pc s + 1 + Z.of_nat n) (v :: st) (mm s)
      | DUP n, st => match nth_error st (n - 1) with Some a => go (a :: st) | None => inr RHalt end
      | SWAP n, a :: st =>
          match nth_error st (n - 1) with
          | Some b => go (b :: firstn (n - 1) st ++ a :: skipn n st)
          | None => inr RHalt
          end
      | RETURN, a :: n :: _ => inr (RReturn (mbytes (mm s) a n))
      | REVERT, a :: n :: _ => inr (RRevert (mbytes (mm s) a n))
      | STATICCALL, _ :: addr :: a :: n :: d :: k :: st =>
          match pre addr (mbytes (mm s) a n) with
          | CUnknown => inr RStuck
          | CFail => go (0 :: st)
          | COk ret => next s (pc s + 1) (1 :: st) (mwrite (mm s) d (firstn (Z.to_nat k) ret))
          end
      | OTHER _, _ => inr RStuck
      | _, _ => inr RHalt                                    (* INVALID, or too few words on the stack *)
      end
  end.

Fixpoint run (fuel : nat) (s : state) : result :=
  match fuel with
  | O => ROutOfFuel
  | S f => match step s with inl s => run f s | inr r => r end
  end.
End Machine.

Definition start : state := St 0 [] (fun _ => 0) 0.
(** a call of a contract with the given code *)
Definition call_contract (pre : Z -> list Z -> callres (list Z)) (gas : nat -> Z) (code : list Z) (cd : list Z) (value : Z) (fuel : nat) : result :=
  run code (decode code) cd value gas pre fuel start.

(** ** the precompiled contracts *)
Section Precompiled.
Variable ecAdd : G1Point -> G1Point -> option G1Point.
Variable ecMul : G1Point -> Z -> option G1Point.
Variable ecPairing : list (G1Point * G2Point) -> option bool.

Definition point (r : option G1Point) : callres (list Z) := match r with Some p => COk [X1 p; Y1 p] | None => CFail end.
Fixpoint pairs (fuel : nat) (ws : list Z) : list (G1Point * G2Point) :=
  match fuel, ws with
  | S f, x :: y :: a :: b :: c :: d :: ws => (G1 x y, G2 (a, b) (c, d)) :: pairs f ws
  | _, _ => []
  end.
(** on words *)
Definition pre_words (addr : Z) (ws : list Z) : callres (list Z) :=
  match addr, ws with
  | 6, [x1; y1; x2; y2] => point (ecAdd (G1 x1 y1) (G1 x2 y2))
  | 7, [x; y; s] => point (ecMul (G1 x y) s)
  | 8, ws => match ecPairing (pairs (length ws) ws) with Some b => COk [b2z b] | None => CFail end
  | _, _ => CUnknown
  end.
(** the number of words used: the addition and the multiplication ignore what follows, and take what is missing
    for zeros *)
Definition arity (addr n : Z) : nat := match addr with 6 => 4 | 7 => 3 | _ => Z.to_nat (n / 32) end.
Definition precompiled (addr : Z) (data : list Z) : callres (list Z) :=
  let n := Z.of_nat (length data) in
  if (addr =? 8) && negb (n mod 192 =? 0) then CFail
  else match pre_words addr (map (word_at data) (seq 0 (arity addr n))) with
       | COk ws => COk (flat_map be_bytes ws)
       | CFail => CFail
       | CUnknown => CUnknown
       end.
End Precompiled.
