(** The unit tests of src/bigint/rat/test.rs, run in the model.

    These are tests, not proofs: they compare the model with the numbers the
    authors of the code expect, as evidence that the translation is faithful.
    Tests are built with overflow checks, hence [checks = true].  [check]
    evaluates a test and does not compile unless the result is [true]. *)
From Coq Require Import ZArith Ascii String List Bool.
From Verif Require Import Words NatModel NatConv BigInt Rat.
Import ListNotations.
Open Scope string_scope.
Open Scope Z_scope.

Ltac check b := let r := eval vm_compute in b in lazymatch r with true => exact tt end.

(** The results of [f64::from_str] of the standard library for the texts in the tests. *)
Definition floats : list (string * Z) := [
  ("0", 0);
  ("-0", 9223372036854775808);
  ("1", 4607182418800017408);
  ("-1", 13830554455654793216);
  ("1.", 4607182418800017408);
  ("1.e0", 4607182418800017408);
  ("1.e1", 4621819117588971520);
  ("-0.1", 13815242216921733530);
  ("-.1", 13815242216921733530);
  (".25", 4598175219545276416);
  ("8129567.7690E14", 4919629561449034622);
  ("78189.e+4", 4739842177075511296);
  ("553019.8935e+8", 4812419457041119232);
  ("98765432109876543210987654321.e-10", 4891228126561728226);
  ("9877861857500000.E-7", 4741569359466463232);
  ("2169378.417e-3", 4656988928662797952);
  ("884243222337379604041632732738665534", 5144599039971384498);
  ("204211327800791583.81095", 4865765601926539921);
  ("0.e9999999999", 0);
  ("2", 4611686018427387904)].
Definition parse_f64 (s : list Z) : option Z := match find (fun p => list_eqb (str (fst p)) s) floats with Some p => Some (snd p) | None => None end.
Definition no_rat : rat := r_nan.
Definition R (s : string) : rat := match r_from_str parse_f64 (str s) with Ok (Some x) => x | _ => r_nan end.
Definition F (n d : Z) : rat := match r_from_frac true n d with Ok (Some x) => x | _ => r_nan end.
Definition same (r : res rat) (x : rat) : bool := match r with Ok z => r_eq z x | _ => false end.
Definition all (l : list bool) : bool := forallb (fun b => b) l.
Definition zero : rat := r_from_bigint (b_from_u32 0).
Definition is_lt (a b : rat) : bool := match r_cmp a b with Some Lt => true | _ => false end.

(** test.rs:5-22 [rat_zero]. *)
Definition rat_zero : bool := let x := F 0 42 in let y := R "0/1" in
  all [r_eq x y; same (r_add x y) x; same (r_sub x y) x; same (r_mul x y) x; match r_from_f64 4607182418800017408 with Ok one => same (r_div x one) x | _ => false end].
Definition rat_zero_ok : unit := ltac:(check rat_zero).

Definition valid : list string := [
  "0";
  "-0";
  "1";
  "-1";
  "1.";
  "1.e0";
  "1.e1";
  "-0.1";
  "-.1";
  "2/4";
  ".25";
  "-1/5";
  "8129567.7690E14";
  "78189.e+4";
  "553019.8935e+8";
  "98765432109876543210987654321.e-10";
  "9877861857500000.E-7";
  "2169378.417e-3";
  "884243222337379604041632732738665534";
  "53/70893980658822810696";
  "106/141787961317645621392";
  "204211327800791583.81095";
  "0.e9999999999"].
(** test.rs:51-64 [rat_sign]. *)
Definition rat_sign : bool := forallb (fun s => match r_signnum (R s) with Some x => if x =? 0 then r_eq (R s) zero else if x >? 0 then is_lt zero (R s) else is_lt (R s) zero | None => false end) valid.
Definition rat_sign_ok : unit := ltac:(check rat_sign).

(** test.rs:67-92 [rat_partial_cmp]. *)
Definition rat_partial_cmp : bool := forallb (fun '(a, b, c) => if c =? 0 then r_eq (R a) (R b) else if c >? 0 then is_lt (R b) (R a) else is_lt (R a) (R b)) [
  ("0", "0/1", (0));
  ("1/1", "1", (0));
  ("-1", "-2/2", (0));
  ("1", "0", (1));
  ("0/1", "1/1", (-1));
  ("-5/1434770811533343057144", "-5/1434770811533343057145", (-1));
  ("49832350382626108453/8964749413", "49832350382626108454/8964749413", (-1));
  ("-37414950961700930/7204075375675961", "37414950961700930/7204075375675961", (-1));
  ("37414950961700930/7204075375675961", "74829901923401860/14408150751351922", (0))].
Definition rat_partial_cmp_ok : unit := ltac:(check rat_partial_cmp).

(** test.rs:95-104 [rat_is_integer], 107-119 [rat_abs], 122-129 [rat_neg], 132-141 [rat_inv]. *)
Definition rat_is_integer : bool := forallb (fun s => match r_is_integer (R s) with Some b => eqb b (b_eq (rden (R s)) (b_from_u32 1)) | None => false end) valid.
Definition rat_is_integer_ok : unit := ltac:(check rat_is_integer).
Definition rat_abs : bool := forallb (fun s => let a := R s in if is_lt a zero then same (r_sub zero a) (r_abs a) else r_eq a (r_abs a)) valid.
Definition rat_abs_ok : unit := ltac:(check rat_abs).
Definition rat_neg : bool := forallb (fun s => same (r_sub zero (R s)) (r_neg (R s))) valid.
Definition rat_neg_ok : unit := ltac:(check rat_neg).
Definition rat_inv : bool := forallb (fun s => let a := R s in r_eq a zero || match r_from_frac_bigint (rden a) (rnum a), r_inv a with Ok (Some x), Some y => r_eq x y | _, _ => false end) valid.
Definition rat_inv_ok : unit := ltac:(check rat_inv).

(** test.rs:144-186 [rat_arith]. *)
Definition rat_arith : bool := forallb (fun '(x, y, s, p) => let x := R x in let y := R y in let s := R s in let p := R p in
    same (r_add x y) s && same (r_sub s y) x && same (r_mul x y) p && (r_eq y zero || same (r_div p y) x) && (r_eq x zero || same (r_div p x) y)) [
  ("0", "0", "0", "0");
  ("0", "1", "1", "0");
  ("-1", "0", "-1", "0");
  ("-1", "1", "0", "-1");
  ("1", "1", "2", "1");
  ("1/2", "1/2", "1", "1/4");
  ("1/4", "1/3", "7/12", "1/12");
  ("2/5", "-14/3", "-64/15", "-28/15");
  ("4707/49292519774798173060", "-3367/70976135186689855734", "84058377121001851123459/1749296273614329067191168098769082663020", "-1760941/388732505247628681598037355282018369560");
  ("-61204110018146728334/3", "-31052192278051565633/2", "-215564796870448153567/6", "950260896245257153059642991192710872711/3");
  ("-854857841473707320655/4237645934602118692642972629634714039", "-18/31750379913563777419", "-27/133467566250814981", "15387441146526731771790/134546868362786310073779084329032722548987800600710485341");
  ("618575745270541348005638912139/19198433543745179392300736", "-19948846211000086/637313996471", "27674141753240653/30123979153216", "-6169936206128396568797607742807090270137721977/6117715203873571641674006593837351328");
  ("-3/26206484091896184128", "5/2848423294177090248", "15310893822118706237/9330894968229805033368778458685147968", "-5/24882386581946146755650075889827061248");
  ("26946729/330400702820", "41563965/225583428284", "1238218672302860271/4658307703098666660055", "224002580204097/14906584649915733312176");
  ("-8259900599013409474/7", "-84829337473700364773/56707961321161574960", "-468402123685491748914621885145127724451/396955729248131024720", "350340947706464153265156004876107029701/198477864624065512360");
  ("575775209696864/1320203974639986246357", "29/712593081308", "410331716733912717985762465/940768218243776489278275419794956", "808/45524274987585732633");
  ("1786597389946320496771/2066653520653241", "6269770/1992362624741777", "3559549865190272133656109052308126637/4117523232840525481453983149257", "8967230/3296219033");
  ("-36459180403360509753/32150500941194292113930", "9381566963714/9633539", "301622077145533298008420642898530153/309723104686531919656937098270", "-3784609207827/3426986245")].
Definition rat_arith_ok : unit := ltac:(check rat_arith).

(** test.rs:189-222 [rat_frac]. *)
Definition rat_frac : bool := let x := F 3 1 in let y := F 2 1 in
  all [same (r_div x y) (F 3 2); match r_inv (F 3 2) with Some i => same (r_div y x) i | None => false end; same (r_div y x) (F 2 3); same (r_div x x) (F 3 3);
       r_eq (F 0 1) (R "0"); r_eq (F 0 (-1)) (R "0"); r_eq (F 1 1) (R "1"); r_eq (F (-1) 1) (R "-1"); r_eq (F 1 (-1)) (R "-1"); r_eq (F (-1) (-1)) (R "1");
       match b_from_str (str "-9223372036854775808") with Some b => match r_from_frac_bigint b b with Ok (Some x) => r_eq x (R "1") | _ => false end | None => false end].
Definition rat_frac_ok : unit := ltac:(check rat_frac).
