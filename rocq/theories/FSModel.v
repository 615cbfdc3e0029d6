(** Model of /repo/fiat-shamir/transcript.go.

    sha is crypto/sha256 on byte strings, is_prime is ProbablyPrime(30); both are section variables.
    A slice of strings is a list here; SliceModel below keeps the backing arrays explicit. *)
From Coq Require Import ZArith Bool String List.
From Verif Require Import GoBig.
Import ListNotations.
Open Scope Z_scope.

(** transcript.go:9-14: min253 = 1 << (bitLimit-1), bitLimit = 240 (line 21) *)
Definition min253 : Z := Z.shiftl 1 (240 - 1).
(** transcript.go:25,27: iota *)
Definition Default : Z := 2.
Definition Max252 : Z := 3.

(** transcript.go:31-34 Transcript *)
Record Transcript := MkTranscript { info : list string; maxlength : Z }.

(** transcript.go:45-51 InitTranscript *)
Definition InitTranscript (input : list string) (length : Z) : Transcript := MkTranscript input length.
(** transcript.go:54-56 Append *)
Definition Append (t : Transcript) (newInfo : string) : Transcript :=
  MkTranscript (info t ++ [newInfo]) (maxlength t).
(** transcript.go:59-61 AppendSlice *)
Definition AppendSlice (t : Transcript) (newInfo : list string) : Transcript :=
  MkTranscript (info t ++ newInfo) (maxlength t).

(** transcript.go:87-101 wrapNumber *)
Definition wrapNumber (input : string) (length : Z) : Z :=
  let ret := set_bytes input in
  if length =? Default then ret
  else if length =? Max252 then (if negb (ret =? min253) then emod ret min253 else ret)
  else ret.

(** the bytes written into the hasher: transcript.go:106-112, 134-140 *)
Definition written (input : list string) : string := fold_right String.append EmptyString input.

Section FS.
Variable sha : string -> string.
Variable is_prime : Z -> bool.

(** transcript.go:116-127, the loop *)
Fixpoint fs_loop (fuel : nat) (ret : Z) (length : Z) : outcome Z :=
  match fuel with
  | O => OutOfFuel
  | S f => if is_prime ret then Ret ret else fs_loop f (wrapNumber (sha (big_bytes ret)) length) length
  end.
(** transcript.go:105-129 HashToPrime *)
Definition FS_HashToPrime (fuel : nat) (input : list string) (length : Z) : outcome Z :=
  fs_loop fuel (wrapNumber (sha (written input)) length) length.

(** transcript.go:133-144 HashToInt *)
Definition FS_HashToInt (input : list string) (length : Z) : Z := wrapNumber (sha (written input)) length.

(** transcript.go:64-69 GetChallengeAndAppendTranscript and 72-77 GetPrimeChallengeUsingTranscript
    (same body) *)
Definition GetPrimeChallenge (fuel : nat) (t : Transcript) : outcome (Z * Transcript) :=
  do ret <- FS_HashToPrime fuel (info t) (maxlength t);
  Ret (ret, Append t (dec ret)).
Definition GetChallengeAndAppend := GetPrimeChallenge.
(** transcript.go:80-85 GetIntChallengeUsingTranscript *)
Definition GetIntChallenge (t : Transcript) : Z * Transcript :=
  let ret := FS_HashToInt (info t) (maxlength t) in (ret, Append t (dec ret)).

(** a client's use of one transcript: any sequence of calls; the challenges are collected in order *)
Inductive op := OpAppend (s : string) | OpAppendSlice (l : list string) | OpPrime | OpPrimeAppend | OpInt.
Fixpoint run (fuel : nat) (t : Transcript) (ops : list op) : outcome (list Z * Transcript) :=
  match ops with
  | [] => Ret ([], t)
  | OpAppend s :: r => run fuel (Append t s) r
  | OpAppendSlice l :: r => run fuel (AppendSlice t l) r
  | OpPrime :: r =>
      do (c, t1) <- GetPrimeChallenge fuel t; do (cs, t2) <- run fuel t1 r; Ret (c :: cs, t2)
  | OpPrimeAppend :: r =>
      do (c, t1) <- GetChallengeAndAppend fuel t; do (cs, t2) <- run fuel t1 r; Ret (c :: cs, t2)
  | OpInt :: r =>
      let (c, t1) := GetIntChallenge t in do (cs, t2) <- run fuel t1 r; Ret (c :: cs, t2)
  end.
End FS.

(** ** Slices with backing arrays: does the transcript share memory with its caller?
    heap = list of arrays; a slice header is (array index, length), its capacity is the length of the
    array. [grow old need] is the capacity chosen by append (any policy). *)
Record header := Hdr { h_arr : option nat; h_len : nat }.  (* None: nil slice *)
Definition heap := list (list string).
Definition view (h : heap) (s : header) : list string :=
  match h_arr s with None => [] | Some a => firstn (h_len s) (nth a h []) end.

Section Slices.
Variable grow : nat -> nat -> nat.

Definition set_arr (h : heap) (a : nat) (c : list string) : heap := firstn a h ++ c :: skipn (S a) h.

(** Go's append(s, x...): in place when the capacity suffices, otherwise a new array *)
Definition go_append (h : heap) (s : header) (x : list string) : heap * header :=
  match h_arr s with
  | Some a =>
      let arr := nth a h [] in
      let need := (h_len s + length x)%nat in
      if (need <=? length arr)%nat
      then (set_arr h a (firstn (h_len s) arr ++ x ++ skipn need arr), Hdr (Some a) need)
      else (h ++ [firstn (h_len s) arr ++ x ++ repeat EmptyString (grow (length arr) need)],
            Hdr (Some (length h)) need)
  | None =>
      match x with
      | [] => (h, s)
      | _ => (h ++ [x ++ repeat EmptyString (grow 0 (length x))], Hdr (Some (length h)) (length x))
      end
  end.

(** what happens in the program: the transcript appends (transcript.go:49, 55, 60), or anybody
    writes s[i] = v into an array that is not the transcript's, or allocates an array *)
Inductive event :=
| EAppend (x : list string)
| EWrite (a i : nat) (v : string)
| EAlloc (c : list string).

(** state: heap, transcript slice header, arrays owned by the transcript so far *)
Record sstate := SSt { sheap : heap; sinfo : header; sowned : list nat }.
Definition own (s : header) (o : list nat) : list nat := match h_arr s with Some a => a :: o | None => o end.
Definition sstep (st : sstate) (e : event) : sstate :=
  match e with
  | EAppend x => let (h, s) := go_append (sheap st) (sinfo st) x in SSt h s (own s (sowned st))
  | EWrite a i v =>
      (* the caller holds no reference to the transcript's arrays; an index out of range panics *)
      if existsb (Nat.eqb a) (sowned st) || negb (a <? length (sheap st))%nat
         || negb (i <? length (nth a (sheap st) []))%nat then st
      else SSt (set_arr (sheap st) a (firstn i (nth a (sheap st) []) ++ v :: skipn (S i) (nth a (sheap st) [])))
               (sinfo st) (sowned st)
  | EAlloc c => SSt (sheap st ++ [c]) (sinfo st) (sowned st)
  end.
Definition srun (st : sstate) (es : list event) : sstate := fold_left sstep es st.

(** transcript.go:45-51 InitTranscript: ret.info is nil, append copies the caller's slice *)
Definition sinit (h : heap) (input : header) : sstate :=
  let (h', s) := go_append h (Hdr None 0) (view h input) in SSt h' s (own s []).
Definition appended (es : list event) : list string :=
  concat (map (fun e => match e with EAppend x => x | _ => [] end) es).
End Slices.
