(** The provers and verifiers of proof/range_proof.go and proof/zkaop.go, and Verify of proof/three_square.go,
    statement by statement over pointers, in the language of PoolLang.v. The loops have constant bounds and are
    unrolled. A struct field is a variable ("r.c3" 0 is r.c3[0]); local variables keep their names. *)
From Coq Require Import ZArith Bool String List.
From Verif Require Import GoBig FSModel PokeModel SquaresModel RangeModel PoolLang.
Import ListNotations.
Local Open Scope string_scope.

Definition idx (i : nat) : string := match i with 0 => "0" | 1 => "1" | 2 => "2" | _ => "3" end%nat.
Definition at_ (x : var) (i : nat) : var := x ++ "[" ++ idx i ++ "]".
Definition vec (x : var) (n : nat) : list var := map (at_ x) (seq 0 n).
(** for i := a; i < b; i++ *)
Definition loop (a b : nat) (body : nat -> list instr) : list instr := flat_map body (seq a (b - a)).

Section Sem.
Variable sha : string -> string.
(** the methods of big.Int, as in GoBig.v *)
Definition interp (o : op) (vs : list Z) : outcome (option Z) :=
  match o, vs with
  | OSet, [a] => Ret (Some a)
  | ONeg, [a] => Ret (Some (- a)%Z)
  | OAdd, [a; b] => Ret (Some (a + b)%Z)
  | OSub, [a; b] => Ret (Some (a - b)%Z)
  | OMul, [a; b] => Ret (Some (a * b)%Z)
  | OMod, [a; b] => do z <- go_mod a b; Ret (Some z)
  | OLsh k, [a] => Ret (Some (Z.shiftl a k))
  | OAddC z, [a] => Ret (Some (a + z)%Z)
  | OConst z, [] => Ret (Some z)
  | OExp, [b; e; n] => Ret (big_exp b e n)
  | OExpUsed, [b; e; n] => do z <- deref (big_exp b e n); Ret (Some z)
  | OInverse, [a; n] => Ret (mod_inverse a n)
  | OPow z, [e] => Ret (Some (z ^ e)%Z)
  | OExpC z, [b; n] => Ret (big_exp b z n)
  | OChallenge, _ => Ret (Some (set_bytes (sha (written (statement_string :: map dec vs)))))
  | _, _ => Panic
  end.
(** the commitment bytes: each number hashed, in order *)
Definition hash_list (vs : list Z) : string := written (map (fun d => sha (big_bytes d)) vs).
End Sem.

(** parameters.go:111-120, with the error of rand.Int passed on by every caller *)
Definition freshRandCoin (x n : var) : instr := IFrame
  [ IGet "lmt"; IOp "lmt" OSet [n]; IDefer "lmt"; IOp "lmt" (OAddC 1) ["lmt"]; IDraw x "lmt" ].
(** parameters.go:89-98, 100-109 *)
Definition newRandCoins (coins : var) (k : nat) (n : var) : list instr := loop 0 k (fun i => [freshRandCoin (at_ coins i) n]).

(** range_proof.go:188-195 *)
Definition calC_code : instr := IFrame
  [ INewOp "c" OExp ["pp.G"; "x"; "pp.N"]; IGet "opt"; IDefer "opt";
    IOp "opt" OExpUsed ["pp.H"; "r.r"; "pp.N"]; IOp "c" OMul ["c"; "opt"]; IOp "c" OMod ["c"; "pp.N"] ].
(** zkaop.go:197-206, range_proof.go:243-252 *)
Definition commitFromTS_code : instr := IFrame
  ([ IGet "opt"; IDefer "opt" ] ++
   loop 0 3 (fun i => [ INewOp (at_ "cList" i) OExp ["pp.G"; at_ "ts" i; "pp.N"];
     IOp "opt" OExpUsed ["pp.H"; at_ "rc" i; "pp.N"];
     IOp (at_ "cList" i) OMul [at_ "cList" i; "opt"]; IOp (at_ "cList" i) OMod [at_ "cList" i; "pp.N"] ])).
(** zkaop.go:244-256, range_proof.go:291-302: h<n>[i] = g^m[i] h^s[i] *)
Definition firstPart_code (k : nat) : instr := IFrame
  ([ IGet "opt"; IDefer "opt" ] ++
   loop 0 k (fun i => [ INewOp "h" OExp ["pp.G"; at_ "m" i; "pp.N"];
     IOp "opt" OExpUsed ["pp.H"; at_ "s" i; "pp.N"];
     IOp "h" OMul ["h"; "opt"]; IOp "h" OMod ["h"; "pp.N"]; IAlias (at_ "d" i) "h" ])).

(** ** Argument of positivity *)
(** zkaop.go:171-194 *)
Definition aop_commitForX : instr := IFrame
  ([ IGet "target"; IOp "target" OSet ["x"]; IDefer "target"; IOp "target" (OLsh 2) ["target"]; IOp "target" (OAddC 1) ["target"];
     ISquares "ts[0]" "ts[1]" "ts[2]" "target" ] ++
   loop 0 3 (fun i => [IAlias (at_ "r.x3" i) (at_ "ts" i)]) ++
   newRandCoins "rc" 3 "pp.N" ++
   loop 0 3 (fun i => [IAlias (at_ "r.r3" i) (at_ "rc" i)]) ++
   [ commitFromTS_code ] ++
   loop 0 3 (fun i => [IAlias (at_ "c3" i) (at_ "cList" i)]) ++
   loop 0 3 (fun i => [IAlias (at_ "r.c3" i) (at_ "c3" i)])).
(** zkaop.go:259-276 *)
Definition secondPartD_code : instr := IFrame
  ([ INewOp "d" (OConst 1) []; IGet "opt"; IDefer "opt" ] ++
   loop 0 3 (fun i => [ IOp "opt" OExpUsed [at_ "r.c3" i; at_ "m" i; "pp.N"]; IOp "d" OMul ["d"; "opt"]; IOp "d" OMod ["d"; "pp.N"] ]) ++
   [ IGet "hPowS"; IOp "hPowS" OExpUsed ["pp.H"; "r.s"; "pp.N"]; IDefer "hPowS"; IOp "d" OMul ["d"; "hPowS"]; IOp "d" OMod ["d"; "pp.N"] ]).
(** zkaop.go:209-243 with 101-127 *)
Definition aop_commit : instr := IFrame
  ([ IGet "powMLmt"; IOp "powMLmt" OSet ["r.sp"]; IDefer "powMLmt"; IOp "powMLmt" (OLsh 1) ["powMLmt"]; IOp "powMLmt" (OAddC 4096) ["powMLmt"];
     IGet "mLmt"; IOp "mLmt" (OPow 2) ["powMLmt"]; IDefer "mLmt" ] ++
   newRandCoins "m" 3 "mLmt" ++
   loop 0 3 (fun i => [IAlias (at_ "r.randM3" i) (at_ "m" i)]) ++
   [ IGet "sLmt"; IOp "sLmt" (OPow 4) ["r.sp"]; IDefer "sLmt"; IOp "sLmt" OMul ["sLmt"; "pp.N"] ] ++
   newRandCoins "s" 3 "sLmt" ++
   loop 0 3 (fun i => [IAlias (at_ "r.randS3" i) (at_ "s" i)]) ++
   [ IOp "sLmt" (OLsh 2048) ["sLmt"]; freshRandCoin "sig" "sLmt"; IAlias "r.s" "sig";
     firstPart_code 3; secondPartD_code; IOut "commitment" ["d[0]"; "d[1]"; "d[2]"; "d"] ]).
(** zkaop.go:285-316 *)
Definition aop_respond : instr := IFrame
  ([ INewOp "e" OChallenge ["pp.G"; "pp.H"; "pp.N"; "r.c3[0]"; "r.c3[1]"; "r.c3[2]"] ] ++
   loop 0 3 (fun i => [ INewOp (at_ "Z3" i) OMul ["e"; at_ "r.x3" i]; IOp (at_ "Z3" i) OAdd [at_ "Z3" i; at_ "r.randM3" i] ]) ++
   loop 0 3 (fun i => [ INewOp (at_ "T3" i) OMul ["e"; at_ "r.r3" i]; IOp (at_ "T3" i) OAdd [at_ "T3" i; at_ "r.randS3" i] ]) ++
   [ INewOp "T" (OLsh 2) ["r.r"]; IGet "opt"; IDefer "opt" ] ++
   loop 0 3 (fun i => [ IOp "opt" OMul [at_ "r.x3" i; at_ "r.r3" i]; IOp "T" OSub ["T"; "opt"] ]) ++
   [ IOp "T" OMul ["T"; "e"]; IOp "T" OAdd ["T"; "r.s"] ]).
(** zkaop.go:153-168 *)
Definition aop_prove_body : list instr :=
  [ calC_code; IAlias "r.C" "c"; aop_commitForX ] ++ loop 0 3 (fun i => [IAlias (at_ "cx" i) (at_ "c3" i)]) ++ [ aop_commit; aop_respond ].
(** zkaop.go:339-346 and 359-424; the answer is whether the bytes put out are those of the proof *)
Definition aop_verify_body : list instr :=
  [ IGet "opt0"; IDefer "opt0" ] ++
  loop 0 3 (fun i => [IAlias (at_ "r.c3" i) (at_ "proof.commit3" i)]) ++
  [ IFrame
  ([ INewOp "e" OChallenge ["pp.G"; "pp.H"; "pp.N"; "r.c3[0]"; "r.c3[1]"; "r.c3[2]"];
     IGet "negE"; IOp "negE" ONeg ["e"]; IDefer "negE"; IGet "opt"; IDefer "opt" ] ++
   loop 0 3 (fun i => [ INewOp (at_ "p" i) OExp ["pp.G"; at_ "Z3" i; "pp.N"];
     IOp "opt" OExpUsed ["pp.H"; at_ "T3" i; "pp.N"]; IOp (at_ "p" i) OMul [at_ "p" i; "opt"];
     IOp "opt" OExpUsed [at_ "r.c3" i; "negE"; "pp.N"]; IOp (at_ "p" i) OMul [at_ "p" i; "opt"];
     IOp (at_ "p" i) OMod [at_ "p" i; "pp.N"] ]) ++
   [ INewOp "lastH" (OConst 1) []; IDefer "lastH" ] ++
   loop 0 3 (fun i => [ IOp "opt" OExpUsed [at_ "r.c3" i; at_ "Z3" i; "pp.N"]; IOp "lastH" OMul ["lastH"; "opt"]; IOp "lastH" OMod ["lastH"; "pp.N"] ]) ++
   [ IGet "hp"; IDefer "hp"; IGet "neg4E"; IOp "neg4E" (OLsh 2) ["negE"]; IDefer "neg4E";
     IOp "hp" OExp ["pp.H"; "T"; "pp.N"]; IOp "opt" OExpUsed ["r.c"; "neg4E"; "pp.N"]; IOp "hp" OMul ["hp"; "opt"]; IOp "hp" OMod ["hp"; "pp.N"];
     IOp "lastH" OMul ["lastH"; "hp"]; IOp "lastH" OMod ["lastH"; "pp.N"];
     IOp "opt" OExpUsed ["pp.G"; "negE"; "pp.N"]; IOp "lastH" OMul ["lastH"; "opt"]; IOp "lastH" OMod ["lastH"; "pp.N"];
     IOut "computed" ["p[0]"; "p[1]"; "p[2]"; "lastH"] ]) ].

(** ** Range proof *)
(** range_proof.go:198-207 *)
Definition calCa_code : instr := IFrame
  [ INewOp "negA" ONeg ["r.a"]; IDefer "negA"; INewOp "opt" OExp ["pp.G"; "negA"; "pp.N"]; IDefer "opt";
    INewOp "ca" OSet ["c"]; IOp "ca" OMul ["ca"; "opt"]; IOp "ca" (OExpC 4) ["ca"; "pp.N"] ].
(** range_proof.go:210-240 *)
Definition rp_commitForX : instr := IFrame
  ([ IGet "target"; IOp "target" OSub ["r.b"; "x"]; IDefer "target"; IGet "opt"; IOp "opt" OSub ["x"; "r.a"]; IDefer "opt";
     IOp "r.x4[0]" OSub ["r.b"; "x"];
     IOp "target" OMul ["target"; "opt"]; IOp "target" (OLsh 2) ["target"]; IOp "target" (OAddC 1) ["target"];
     ISquares "ts[0]" "ts[1]" "ts[2]" "target" ] ++
   loop 0 3 (fun i => [IAlias (at_ "r.x4" (S i)) (at_ "ts" i)]) ++
   [ INewOp "r.r4[0]" ONeg ["r.r"] ] ++
   newRandCoins "rc" 3 "pp.N" ++
   loop 0 3 (fun i => [IAlias (at_ "r.r4" (S i)) (at_ "rc" i)]) ++
   [ commitFromTS_code ] ++
   loop 0 3 (fun i => [IAlias (at_ "c3" i) (at_ "cList" i)]) ++
   loop 0 3 (fun i => [IAlias (at_ "r.c3" i) (at_ "c3" i)])).
(** range_proof.go:305-327: result is put back when the call ends *)
Definition secondPartH_code : instr := IFrame
  ([ IGet "result"; IOp "result" OExpUsed ["pp.H"; "r.sigma"; "pp.N"]; IDefer "result"; IGet "opt"; IDefer "opt";
     IOp "opt" OExp ["r.ca"; "r.randM4[0]"; "pp.N"]; IOp "result" OMul ["result"; "opt"]; IOp "result" OMod ["result"; "pp.N"];
     IGet "negM"; IDefer "negM" ] ++
   loop 0 3 (fun i => [ IOp "negM" ONeg [at_ "m" (S i)]; IOp "opt" OExpUsed [at_ "r.c3" i; "negM"; "pp.N"];
     IOp "result" OMul ["result"; "opt"]; IOp "result" OMod ["result"; "pp.N"] ])).
(** range_proof.go:255-289 with 110-136 *)
Definition rp_commit_code : instr := IFrame
  ([ IGet "powMLmt"; IOp "powMLmt" OSet ["r.sp"]; IDefer "powMLmt"; IOp "powMLmt" (OLsh 1) ["powMLmt"]; IOp "powMLmt" (OAddC 4096) ["powMLmt"];
     IGet "mLmt"; IOp "mLmt" (OPow 2) ["powMLmt"]; IDefer "mLmt" ] ++
   newRandCoins "m" 4 "mLmt" ++
   loop 0 4 (fun i => [IAlias (at_ "r.randM4" i) (at_ "m" i)]) ++
   [ IGet "sLmt"; IOp "sLmt" (OPow 4) ["r.sp"]; IDefer "sLmt"; IOp "sLmt" OMul ["sLmt"; "pp.N"] ] ++
   newRandCoins "s" 4 "sLmt" ++
   loop 0 4 (fun i => [IAlias (at_ "r.randS4" i) (at_ "s" i)]) ++
   [ IOp "sLmt" (OLsh 4096) ["sLmt"]; freshRandCoin "sig" "sLmt"; IAlias "r.sigma" "sig";
     firstPart_code 4; secondPartH_code; IAlias "d" "result"; IOut "commitment" ["d[0]"; "d[1]"; "d[2]"; "d[3]"; "d"] ]).
(** range_proof.go:336-372 *)
Definition rp_respond : instr := IFrame
  ([ INewOp "e" OChallenge ["pp.G"; "pp.H"; "pp.N"; "r.a"; "r.b"; "r.c3[0]"; "r.c3[1]"; "r.c3[2]"] ] ++
   loop 0 4 (fun i => [ INewOp (at_ "Z4" i) OMul ["e"; at_ "r.x4" i]; IOp (at_ "Z4" i) OAdd [at_ "Z4" i; at_ "r.randM4" i] ]) ++
   loop 0 4 (fun i => [ INewOp (at_ "T4" i) OMul ["e"; at_ "r.r4" i]; IOp (at_ "T4" i) OAdd [at_ "T4" i; at_ "r.randS4" i] ]) ++
   [ IGet "sumXR"; IDefer "sumXR"; IOp "sumXR" (OConst 0) []; IGet "opt"; IDefer "opt" ] ++
   loop 1 4 (fun i => [ IOp "opt" OMul [at_ "r.x4" i; at_ "r.r4" i]; IOp "sumXR" OAdd ["sumXR"; "opt"] ]) ++
   [ INewOp "TAU" OMul ["r.x4[0]"; "r.r4[0]"]; IOp "TAU" (OLsh 2) ["TAU"]; IOp "TAU" OAdd ["TAU"; "sumXR"]; IOp "TAU" OMul ["TAU"; "e"]; IOp "TAU" OAdd ["TAU"; "r.sigma"] ]).
(** range_proof.go:167-185 *)
Definition rp_prove_body : list instr :=
  [ calC_code; IAlias "r.c" "c"; calCa_code; IAlias "r.ca" "ca"; INewOp "r.x4[0]" OSub ["r.b"; "x"]; IAlias "r.r4[0]" "r.r"; rp_commitForX ] ++
  loop 0 3 (fun i => [IAlias (at_ "cx" i) (at_ "c3" i)]) ++ [ rp_commit_code; rp_respond ].
(** range_proof.go:396-412 and 425-484 *)
Definition rp_verify_body : list instr :=
  [ INewOp "r.c4[0]" OInverse ["proof.c"; "pp.N"]; IGet "opt0"; IDefer "opt0";
    IOp "opt0" OExpUsed ["pp.G"; "r.b"; "pp.N"]; IOp "r.c4[0]" OMul ["r.c4[0]"; "opt0"]; IOp "r.c4[0]" OMod ["r.c4[0]"; "pp.N"] ] ++
  loop 1 4 (fun i => [IAlias (at_ "r.c4" i) (at_ "proof.commit3" (i - 1))]) ++
  [ IOp "opt0" ONeg ["r.a"]; IOp "opt0" OExp ["pp.G"; "opt0"; "pp.N"]; INewOp "r.ca" OMul ["proof.c"; "opt0"]; IOp "r.ca" OMod ["r.ca"; "pp.N"];
    IOp "r.ca" (OExpC 4) ["r.ca"; "pp.N"];
    IFrame
  ([ INewOp "ch" OChallenge ["pp.G"; "pp.H"; "pp.N"; "r.a"; "r.b"; "r.c4[1]"; "r.c4[2]"; "r.c4[3]"];
     IGet "negC"; IOp "negC" ONeg ["ch"]; IDefer "negC"; IGet "opt"; IDefer "opt" ] ++
   loop 0 4 (fun i => [ INewOp (at_ "p" i) OExp ["pp.G"; at_ "Z4" i; "pp.N"];
     IOp "opt" OExpUsed ["pp.H"; at_ "T4" i; "pp.N"]; IOp (at_ "p" i) OMul [at_ "p" i; "opt"];
     IOp "opt" OExpUsed [at_ "r.c4" i; "negC"; "pp.N"]; IOp (at_ "p" i) OMul [at_ "p" i; "opt"];
     IOp (at_ "p" i) OMod [at_ "p" i; "pp.N"] ]) ++
   [ INewOp "lastH" OExp ["pp.H"; "TAU"; "pp.N"]; IDefer "lastH";
     IOp "opt" OExpUsed ["pp.G"; "ch"; "pp.N"]; IOp "lastH" OMul ["lastH"; "opt"]; IOp "lastH" OMod ["lastH"; "pp.N"];
     IOp "opt" OExpUsed ["r.ca"; "Z4[0]"; "pp.N"]; IOp "lastH" OMul ["lastH"; "opt"]; IOp "lastH" OMod ["lastH"; "pp.N"] ] ++
   loop 1 4 (fun i => [ IOp "opt" ONeg [at_ "Z4" i]; IOp "opt" OExpUsed [at_ "r.c4" i; "opt"; "pp.N"];
     IOp "lastH" OMul ["lastH"; "opt"]; IOp "lastH" OMod ["lastH"; "pp.N"] ]) ++
   [ IOut "computed" ["p[0]"; "p[1]"; "p[2]"; "p[3]"; "lastH"] ]) ].
