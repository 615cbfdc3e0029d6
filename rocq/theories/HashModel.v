(** Model of /repo/accumulator/hashes.go, genRep.go, the constants of common.go and TrustedSetup,
    GenBenchSet (manualbench.go), GenRandomizer (zkacc.go).

    External functions are section variables, so that every theorem holds for every choice of them:
    sha        crypto/sha256, a function from byte strings to byte strings
    is_prime   big.Int.ProbablyPrime, a function from integers to booleans
    poseidon   gnark-crypto's Poseidon, from lists of field elements to field elements, elements
               being represented by their canonical integers in [0, fr_modulus) *)
From Coq Require Import ZArith Bool String List.
From Verif Require Import GoBig AccModel IterModel.
Import ListNotations.
Open Scope Z_scope.

(** order of the scalar field of BN254 (gnark-crypto, ecc/bn254/fr) *)
Definition fr_modulus : Z :=
  21888242871839275222246405745257275088548364400416034343698204186575808495617.

(** common.go:21,23,25 *)
Definition N2048String : string := "22582513446883649683242153375773765418277977026848618150278436227443969113525388360965414596382292671632010154272027792498289390464326093128963474525925743125404187090638221587455285089494562751793489098182761320953828657439130044252338283109583198301789045090284695934345711523245381620643226632165168827411546661236460973389982263385406789443858985073091473529732325356098830825299275985202060852102775942940039443155227986748457261585440368528834910182851433705587223040610934954417065434756145769875043620201897615075786323297141320586481340831246603933018654794846594742280842668198512719618188992528830140149361".
Definition G2048String : string := "3734320578166922768976307305081280303658237303482921793243310032002132951325426885895423150554487167609218974062079302792001919827304933109188668552532361245089029380294384169787606911401094856511916709999954764232948323779503820860893459514928713744983707360078264267038900798843893405664990521531326919997106338139056096176409033756102908667173913246197068450150318832809948977367751025873698025220766782003611956130604742644746610708520581969538416206455665972248047959779079118036299417601968576259426648158714614452861031491553305187113545916330322686053758561416773919173504690956803771722726889946697788319929".
Definition H2048String : string := "1582433196042535773898642856814926874501199844772808209798545765882857391073717631360065816613373509202691737458490830509979879771883168398785856056110736083435040549860024938378796318753064835110482441115760897524667343221753799849207723195729358565521753697076761550453675996906942484179834968386568757636433579938945322152073309477120701766107272148535093122238519340372766971216124175473667780382425281013570558875523373504108433319932127851859684947025440123382599601611460274335280822834972913253420025827402904805226163959418839188054187383250553791823431534564282919675786841775533806609995586228017407921459".
(** common.go:33,35,37 *)
Definition PString : string := "90906479945022450706608444255860322124872501190254782434061962615363326054763".
Definition AString : string := "88002637055063747320581957665708636390837016772007025523219521174143026565170".
Definition BString : string := "13294476384846260317153427213550716038030529474006293344879303435820149470959".

(** [x.SetString(s,10)] on a zero receiver with the error ignored: accumulator.go:15-17, 27-29 *)
Definition parse_or_zero (s : string) : Z := match set_string10 s with Some v => v | None => 0 end.

(** accumulator.go:12-18 init *)
Definition Min1024 : Z := Z.shiftl 1 (1024 - 1).
Definition Min2048 : Z := Z.shiftl 1 (2048 - 1).
Definition uh_P : Z := parse_or_zero PString.
Definition uh_A : Z := parse_or_zero AString.
Definition uh_B : Z := parse_or_zero BString.

(** common.go:69-73 Setup *)
Record Setup := MkSetup { sN : Z; sG : Z; sH : Z }.

(** accumulator.go:21-31 TrustedSetup *)
Definition TrustedSetup : Setup :=
  MkSetup (parse_or_zero N2048String) (parse_or_zero G2048String) (parse_or_zero H2048String).

(** common.go:28,30: the values of iota *)
Definition HashToPrimeFromSha256 : Z := 6.
Definition DIHashFromPoseidon : Z := 7.

(** manualbench.go:73-79 GenBenchSet; make panics on a negative length *)
Definition GenBenchSet (num : Z) : outcome (list string) :=
  if num <? 0 then Panic else Ret (map (fun i => dec (Z.of_nat i)) (seq 0 (Z.to_nat num))).

(** hashes.go:12-16 ElementFromBigInt (SetBigInt reduces modulo the field order) *)
Definition ElementFromBigInt (v : Z) : Z := v mod fr_modulus.
(** hashes.go:19-27 ElementFromString *)
Definition ElementFromString (v : string) : outcome Z :=
  match set_string10 v with Some n => Ret (n mod fr_modulus) | None => Panic end.
(** hashes.go:30-34 ElementFromUint32 *)
Definition ElementFromUint32 (v : Z) : Z := v mod fr_modulus.

(** hashes.go:87-97 UniversalHashToInt *)
Definition UniversalHashToInt (input : Z) : Z :=
  let ret := input * uh_A in
  let ret := emod ret uh_P in
  let ret := ret + uh_B in
  let ret := emod ret uh_P in
  if Z.testbit ret 0 then ret else ret + 1.

Section Hashes.
Variable sha : string -> string.
Variable is_prime : Z -> bool.
Variable poseidon : list Z -> Z.

(** hashes.go:47-58, the loop of HashToPrime; hashTemp is the current digest *)
Fixpoint hash_to_prime_loop (fuel : nat) (hashTemp : string) : outcome Z :=
  match fuel with
  | O => OutOfFuel
  | S f =>
      let ret := set_bytes hashTemp in
      if is_prime ret then Ret ret else hash_to_prime_loop f (sha hashTemp)
  end.
(** hashes.go:37-60 HashToPrime *)
Definition HashToPrime (fuel : nat) (input : string) : outcome Z := hash_to_prime_loop fuel (sha input).

(** hashes.go:63-73 SHA256ToInt *)
Definition SHA256ToInt (input : string) : Z := set_bytes (sha input).

(** hashes.go:76-84 PoseidonWith2Inputs *)
Definition PoseidonWith2Inputs (inputs : list Z) : outcome Z :=
  match inputs with
  | [a; b] => Ret (poseidon [ElementFromBigInt a; ElementFromBigInt b])
  | _ => Panic
  end.

(** hashes.go:100-106 DIHashPoseidon *)
Definition DIHashPoseidon (input : list Z) : Z := poseidon input + Min1024.
(** hashes.go:109-115 PoseidonAndDIHash *)
Definition PoseidonAndDIHash (input : list Z) : Z * Z := (poseidon input, poseidon input + Min1024).

(** genRep.go:9-15 *)
Definition genRepWithHashToPrimeFromSHA256 (fuel : nat) (set : list string) : outcome (list Z) :=
  map_outcome (HashToPrime fuel) set.
(** genRep.go:17-26 *)
Definition genRepWithDIHashFromPoseidon (set : list string) : outcome (list Z) :=
  map_outcome (fun s => do e <- ElementFromString s; Ret (poseidon [e] + Min1024)) set.

(** accumulator.go:34-43 GenRepresentatives *)
Definition GenRepresentatives (fuel : nat) (set : list string) (encodeType : Z) : outcome (list Z) :=
  if encodeType =? HashToPrimeFromSha256 then genRepWithHashToPrimeFromSHA256 fuel set
  else if encodeType =? DIHashFromPoseidon then genRepWithDIHashFromPoseidon set
  else genRepWithHashToPrimeFromSHA256 fuel set.

(** accumulator.go:46-59 AccAndProve *)
Definition AccAndProve (fuel : nat) (set : list string) (encodeType : Z) (setup : Setup) : outcome (Z * list Z) :=
  do rep <- GenRepresentatives fuel set encodeType;
  AccAndProve_rep (sG setup) (sN setup) rep.
(** accumulator.go:62-70 AccAndProveIter *)
Definition AccAndProveIter (fuel : nat) (set : list string) (encodeType : Z) (setup : Setup) : outcome (Z * list Z) :=
  do rep <- GenRepresentatives fuel set encodeType;
  AccAndProveIter_rep (sG setup) (sN setup) rep.
(** zkacc.go:20-36 ZKAccumulate, r being the value drawn by GenRandomizer *)
Definition ZKAccumulate (fuel : nat) (r : Z) (set : list string) (encodeType : Z) (setup : Setup) : outcome (Z * list Z) :=
  do rep <- GenRepresentatives fuel set encodeType;
  ZKAccumulate_rep (sG setup) (sN setup) r rep.

(** common.go:83-101 GenerateG: the value printed (the function only prints it) *)
Fixpoint sha_chain (k : nat) (x : Z) : list Z :=
  match k with O => [] | S k' => x :: sha_chain k' (SHA256ToInt (big_bytes x)) end.
Definition GenerateG_prod : Z :=
  emod (SetProduct (sha_chain 8 (SHA256ToInt N2048String))) (parse_or_zero N2048String).
(** with the warning of lines 96-101 *)
Definition GenerateG : Z * bool := (GenerateG_prod, negb (Z.gcd (parse_or_zero N2048String) GenerateG_prod =? 1)).
End Hashes.
