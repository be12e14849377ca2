(** The repository's own unit tests, run on the model (generated by tools/gen_tests.py from
    /repo/parse_address_list_test.go, /repo/parse_date_time_test.go and /repo/tests.xml).
    These are tests of the model's faithfulness, not properties: [Succeed] makes the build fail
    when a test fails, and leaves nothing in the compiled file. *)
From Coq Require Import List NArith ZArith Bool.
From Verif Require Import Lexer Utf8 Strs Mime GoTime Parser Walker Api.
Import ListNotations.
Local Open Scope N_scope.

Definition e_test : env := mkEnv (mkWenv 2020 None) SkipBad.

Definition eqb_addr (a b : addr) : bool :=
  eqb_str (a_name a) (a_name b) && eqb_str (a_address a) (a_address b).

Fixpoint eqb_addrs (a b : list addr) : bool :=
  match a, b with
  | [], [] => true
  | x :: a', y :: b' => eqb_addr x y && eqb_addrs a' b'
  | _, _ => false
  end.

Definition expects (input : gostring) (want : list addr) : bool :=
  match ParseAddressList e_test input with
  | Ret s None => eqb_addrs (elems s) want
  | _ => false
  end.

Definition rejects (input : gostring) : bool :=
  match ParseAddressList e_test input with Ret None (Some _) => true | _ => false end.

Definition accepted (input : gostring) : bool :=
  match ParseAddressList e_test input with Ret _ None => true | _ => false end.

Definition expects_time (input : gostring) (want : Z * Z * Z * (Z * Z * Z) * Z) : bool :=
  match ParseDateTime e_test input with
  | Ret t None =>
      let '(y, mo, d, (h, mi, s), off) := want in
      let '(y', mo', d') := t_date t in
      let '(h', mi', s') := t_clock t in
      ((y =? y') && (mo =? mo') && (d =? d') && (h =? h') && (mi =? mi') && (s =? s')
       && (off =? t_zone_offset t))%Z
  | _ => false
  end.

Definition rejects_time (input : gostring) : bool :=
  match ParseDateTime e_test input with Ret _ (Some _) => true | _ => false end.

Succeed Definition TestParseSingleAddress := (@eq_refl bool true <: forallb (fun b => b) [
  (* user@example.com *) expects [117;115;101;114;64;101;120;97;109;112;108;101;46;99;111;109] [mkAddr [] [117;115;101;114;64;101;120;97;109;112;108;101;46;99;111;109]];
  (* John Doe <jdoe@machine.example> *) expects [74;111;104;110;32;68;111;101;32;60;106;100;111;101;64;109;97;99;104;105;110;101;46;101;120;97;109;112;108;101;62] [mkAddr [74;111;104;110;32;68;111;101] [106;100;111;101;64;109;97;99;104;105;110;101;46;101;120;97;109;112;108;101]];
  (* Mary Smith <mary@example.net> *) expects [77;97;114;121;32;83;109;105;116;104;32;60;109;97;114;121;64;101;120;97;109;112;108;101;46;110;101;116;62] [mkAddr [77;97;114;121;32;83;109;105;116;104] [109;97;114;121;64;101;120;97;109;112;108;101;46;110;101;116]];
  (* ~Joe Q. Public~ <john.q.public@example.com> *) expects [34;74;111;101;32;81;46;32;80;117;98;108;105;99;34;32;60;106;111;104;110;46;113;46;112;117;98;108;105;99;64;101;120;97;109;112;108;101;46;99;111;109;62] [mkAddr [74;111;101;32;81;46;32;80;117;98;108;105;99] [106;111;104;110;46;113;46;112;117;98;108;105;99;64;101;120;97;109;112;108;101;46;99;111;109]];
  (* Mary Smith <mary@x.test> *) expects [77;97;114;121;32;83;109;105;116;104;32;60;109;97;114;121;64;120;46;116;101;115;116;62] [mkAddr [77;97;114;121;32;83;109;105;116;104] [109;97;114;121;64;120;46;116;101;115;116]];
  (* jdoe@example.org *) expects [106;100;111;101;64;101;120;97;109;112;108;101;46;111;114;103] [mkAddr [] [106;100;111;101;64;101;120;97;109;112;108;101;46;111;114;103]];
  (* Who? <one@y.test> *) expects [87;104;111;63;32;60;111;110;101;64;121;46;116;101;115;116;62] [mkAddr [87;104;111;63] [111;110;101;64;121;46;116;101;115;116]];
  (* <boss@nil.test> *) expects [60;98;111;115;115;64;110;105;108;46;116;101;115;116;62] [mkAddr [] [98;111;115;115;64;110;105;108;46;116;101;115;116]];
  (* ~Giant; ~~Big~~ Box~ <sysservices@example.net> *) expects [34;71;105;97;110;116;59;32;92;34;66;105;103;92;34;32;66;111;120;34;32;60;115;121;115;115;101;114;118;105;99;101;115;64;101;120;97;109;112;108;101;46;110;101;116;62] [mkAddr [71;105;97;110;116;59;32;34;66;105;103;34;32;66;111;120] [115;121;115;115;101;114;118;105;99;101;115;64;101;120;97;109;112;108;101;46;110;101;116]];
  (* Pete <pete@silly.example> *) expects [80;101;116;101;32;60;112;101;116;101;64;115;105;108;108;121;46;101;120;97;109;112;108;101;62] [mkAddr [80;101;116;101] [112;101;116;101;64;115;105;108;108;121;46;101;120;97;109;112;108;101]];
  (* ~Mary Smith: Personal Account~ <smith@home.example> *) expects [34;77;97;114;121;32;83;109;105;116;104;58;32;80;101;114;115;111;110;97;108;32;65;99;99;111;117;110;116;34;32;60;115;109;105;116;104;64;104;111;109;101;46;101;120;97;109;112;108;101;62] [mkAddr [77;97;114;121;32;83;109;105;116;104;58;32;80;101;114;115;111;110;97;108;32;65;99;99;111;117;110;116] [115;109;105;116;104;64;104;111;109;101;46;101;120;97;109;112;108;101]];
  (* Pete~A nice ~~ chap~ <pete~his account~@silly.test~his host~> *) expects [80;101;116;101;40;65;32;110;105;99;101;32;92;41;32;99;104;97;112;41;32;60;112;101;116;101;40;104;105;115;32;97;99;99;111;117;110;116;41;64;115;105;108;108;121;46;116;101;115;116;40;104;105;115;32;104;111;115;116;41;62] [mkAddr [80;101;116;101] [112;101;116;101;64;115;105;108;108;121;46;116;101;115;116]];
  (* Gogh Fir <gf@example.com> *) expects [71;111;103;104;32;70;105;114;32;60;103;102;64;101;120;97;109;112;108;101;46;99;111;109;62] [mkAddr [71;111;103;104;32;70;105;114] [103;102;64;101;120;97;109;112;108;101;46;99;111;109]];
  (* normal name  <username@server.com> *) expects [110;111;114;109;97;108;32;110;97;109;101;32;32;60;117;115;101;114;110;97;109;101;64;115;101;114;118;101;114;46;99;111;109;62] [mkAddr [110;111;114;109;97;108;32;110;97;109;101] [117;115;101;114;110;97;109;101;64;115;101;114;118;101;114;46;99;111;109]];
  (* ~comma, name~  <username@server.com> *) expects [34;99;111;109;109;97;44;32;110;97;109;101;34;32;32;60;117;115;101;114;110;97;109;101;64;115;101;114;118;101;114;46;99;111;109;62] [mkAddr [99;111;109;109;97;44;32;110;97;109;101] [117;115;101;114;110;97;109;101;64;115;101;114;118;101;114;46;99;111;109]];
  (* name  <username@server.com> ~ignore comment~ *) expects [110;97;109;101;32;32;60;117;115;101;114;110;97;109;101;64;115;101;114;118;101;114;46;99;111;109;62;32;40;105;103;110;111;114;101;32;99;111;109;109;101;110;116;41] [mkAddr [110;97;109;101] [117;115;101;114;110;97;109;101;64;115;101;114;118;101;114;46;99;111;109]];
  (* ~Mail Robot~ <> *) expects [34;77;97;105;108;32;82;111;98;111;116;34;32;60;62] [mkAddr [77;97;105;108;32;82;111;98;111;116] []];
  (* Michal Ho~ej~ek <ho~ej~ek@mail.com> *) expects [77;105;99;104;97;108;32;72;111;197;153;101;106;197;161;101;107;32;60;104;111;197;153;101;106;197;161;101;107;64;109;97;105;108;46;99;111;109;62] [mkAddr [77;105;99;104;97;108;32;72;111;197;153;101;106;197;161;101;107] [104;111;197;153;101;106;197;161;101;107;64;109;97;105;108;46;99;111;109]];
  (* First Last <user@domain.com > *) expects [70;105;114;115;116;32;76;97;115;116;32;60;117;115;101;114;64;100;111;109;97;105;110;46;99;111;109;32;62] [mkAddr [70;105;114;115;116;32;76;97;115;116] [117;115;101;114;64;100;111;109;97;105;110;46;99;111;109]];
  (* First Last <user@domain.com. > *) expects [70;105;114;115;116;32;76;97;115;116;32;60;117;115;101;114;64;100;111;109;97;105;110;46;99;111;109;46;32;62] [mkAddr [70;105;114;115;116;32;76;97;115;116] [117;115;101;114;64;100;111;109;97;105;110;46;99;111;109;46]];
  (* First Last <user@domain.com.> *) expects [70;105;114;115;116;32;76;97;115;116;32;60;117;115;101;114;64;100;111;109;97;105;110;46;99;111;109;46;62] [mkAddr [70;105;114;115;116;32;76;97;115;116] [117;115;101;114;64;100;111;109;97;105;110;46;99;111;109;46]];
  (* First Last <user@domain.com:25> *) expects [70;105;114;115;116;32;76;97;115;116;32;60;117;115;101;114;64;100;111;109;97;105;110;46;99;111;109;58;50;53;62] [mkAddr [70;105;114;115;116;32;76;97;115;116] [117;115;101;114;64;100;111;109;97;105;110;46;99;111;109;58;50;53]];
  (* First Last <user@~10.0.0.1~> *) expects [70;105;114;115;116;32;76;97;115;116;32;60;117;115;101;114;64;91;49;48;46;48;46;48;46;49;93;62] [mkAddr [70;105;114;115;116;32;76;97;115;116] [117;115;101;114;64;91;49;48;46;48;46;48;46;49;93]];
  (* <postmaster@~10.10.10.10~> *) expects [60;112;111;115;116;109;97;115;116;101;114;64;91;49;48;46;49;48;46;49;48;46;49;48;93;62] [mkAddr [] [112;111;115;116;109;97;115;116;101;114;64;91;49;48;46;49;48;46;49;48;46;49;48;93]];
  (* First Last < user@domain.com> *) expects [70;105;114;115;116;32;76;97;115;116;32;60;32;117;115;101;114;64;100;111;109;97;105;110;46;99;111;109;62] [mkAddr [70;105;114;115;116;32;76;97;115;116] [117;115;101;114;64;100;111;109;97;105;110;46;99;111;109]];
  (* user@domain.com, *) expects [117;115;101;114;64;100;111;109;97;105;110;46;99;111;109;44] [mkAddr [] [117;115;101;114;64;100;111;109;97;105;110;46;99;111;109]];
  (* First Middle ~Last~ <user@domain.com> *) expects [70;105;114;115;116;32;77;105;100;100;108;101;32;34;76;97;115;116;34;32;60;117;115;101;114;64;100;111;109;97;105;110;46;99;111;109;62] [mkAddr [70;105;114;115;116;32;77;105;100;100;108;101;32;76;97;115;116] [117;115;101;114;64;100;111;109;97;105;110;46;99;111;109]];
  (* First Middle Last <user@domain.com> *) expects [70;105;114;115;116;32;77;105;100;100;108;101;32;76;97;115;116;32;60;117;115;101;114;64;100;111;109;97;105;110;46;99;111;109;62] [mkAddr [70;105;114;115;116;32;77;105;100;100;108;101;32;76;97;115;116] [117;115;101;114;64;100;111;109;97;105;110;46;99;111;109]];
  (* First Middle~Last~ <user@domain.com> *) expects [70;105;114;115;116;32;77;105;100;100;108;101;34;76;97;115;116;34;32;60;117;115;101;114;64;100;111;109;97;105;110;46;99;111;109;62] [mkAddr [70;105;114;115;116;32;77;105;100;100;108;101;32;76;97;115;116] [117;115;101;114;64;100;111;109;97;105;110;46;99;111;109]];
  (* First Middle ~Last~<user@domain.com> *) expects [70;105;114;115;116;32;77;105;100;100;108;101;32;34;76;97;115;116;34;60;117;115;101;114;64;100;111;109;97;105;110;46;99;111;109;62] [mkAddr [70;105;114;115;116;32;77;105;100;100;108;101;32;76;97;115;116] [117;115;101;114;64;100;111;109;97;105;110;46;99;111;109]];
  (* First ~Middle~ ~Last~ <user@domain.com> *) expects [70;105;114;115;116;32;34;77;105;100;100;108;101;34;32;34;76;97;115;116;34;32;60;117;115;101;114;64;100;111;109;97;105;110;46;99;111;109;62] [mkAddr [70;105;114;115;116;32;77;105;100;100;108;101;32;76;97;115;116] [117;115;101;114;64;100;111;109;97;105;110;46;99;111;109]];
  (* First ~Middle~~Last~ <user@domain.com> *) expects [70;105;114;115;116;32;34;77;105;100;100;108;101;34;34;76;97;115;116;34;32;60;117;115;101;114;64;100;111;109;97;105;110;46;99;111;109;62] [mkAddr [70;105;114;115;116;32;77;105;100;100;108;101;32;76;97;115;116] [117;115;101;114;64;100;111;109;97;105;110;46;99;111;109]];
  (* first.last <user@domain.com> *) expects [102;105;114;115;116;46;108;97;115;116;32;60;117;115;101;114;64;100;111;109;97;105;110;46;99;111;109;62] [mkAddr [102;105;114;115;116;46;108;97;115;116] [117;115;101;114;64;100;111;109;97;105;110;46;99;111;109]];
  (* first . last <user@domain.com> *) expects [102;105;114;115;116;32;46;32;108;97;115;116;32;60;117;115;101;114;64;100;111;109;97;105;110;46;99;111;109;62] [mkAddr [102;105;114;115;116;46;108;97;115;116] [117;115;101;114;64;100;111;109;97;105;110;46;99;111;109]];
  (* user@domain <user@domain.com> *) expects [117;115;101;114;64;100;111;109;97;105;110;32;60;117;115;101;114;64;100;111;109;97;105;110;46;99;111;109;62] [mkAddr [117;115;101;114;64;100;111;109;97;105;110] [117;115;101;114;64;100;111;109;97;105;110;46;99;111;109]];
  (* user @ domain <user@domain.com> *) expects [117;115;101;114;32;64;32;100;111;109;97;105;110;32;60;117;115;101;114;64;100;111;109;97;105;110;46;99;111;109;62] [mkAddr [117;115;101;114;64;100;111;109;97;105;110] [117;115;101;114;64;100;111;109;97;105;110;46;99;111;109]]
] = true).

Succeed Definition TestParseSingleAddressEncodedWord := (@eq_refl bool true <: forallb (fun b => b) [
  (* =?US-ASCII?Q?Keith_Moore?= <moore@cs.utk.edu> *) expects [61;63;85;83;45;65;83;67;73;73;63;81;63;75;101;105;116;104;95;77;111;111;114;101;63;61;32;60;109;111;111;114;101;64;99;115;46;117;116;107;46;101;100;117;62] [mkAddr [75;101;105;116;104;32;77;111;111;114;101] [109;111;111;114;101;64;99;115;46;117;116;107;46;101;100;117]];
  (* =?ISO-8859-1?Q?Keld_J=F8rn_Simonsen?= <keld@dkuug.dk> *) expects [61;63;73;83;79;45;56;56;53;57;45;49;63;81;63;75;101;108;100;95;74;61;70;56;114;110;95;83;105;109;111;110;115;101;110;63;61;32;60;107;101;108;100;64;100;107;117;117;103;46;100;107;62] [mkAddr [75;101;108;100;32;74;195;184;114;110;32;83;105;109;111;110;115;101;110] [107;101;108;100;64;100;107;117;117;103;46;100;107]];
  (* =?ISO-8859-1?Q?Andr=E9?= Pirard <PIRARD@vm1.ulg.ac.be> *) expects [61;63;73;83;79;45;56;56;53;57;45;49;63;81;63;65;110;100;114;61;69;57;63;61;32;80;105;114;97;114;100;32;60;80;73;82;65;82;68;64;118;109;49;46;117;108;103;46;97;99;46;98;101;62] [mkAddr [65;110;100;114;195;169;32;80;105;114;97;114;100] [80;73;82;65;82;68;64;118;109;49;46;117;108;103;46;97;99;46;98;101]];
  (* =?ISO-8859-1?Q?Olle_J=E4rnefors?= <ojarnef@admin.kth.se> *) expects [61;63;73;83;79;45;56;56;53;57;45;49;63;81;63;79;108;108;101;95;74;61;69;52;114;110;101;102;111;114;115;63;61;32;60;111;106;97;114;110;101;102;64;97;100;109;105;110;46;107;116;104;46;115;101;62] [mkAddr [79;108;108;101;32;74;195;164;114;110;101;102;111;114;115] [111;106;97;114;110;101;102;64;97;100;109;105;110;46;107;116;104;46;115;101]];
  (* =?ISO-8859-1?Q?Patrik_F=E4ltstr=F6m?= <paf@nada.kth.se> *) expects [61;63;73;83;79;45;56;56;53;57;45;49;63;81;63;80;97;116;114;105;107;95;70;61;69;52;108;116;115;116;114;61;70;54;109;63;61;32;60;112;97;102;64;110;97;100;97;46;107;116;104;46;115;101;62] [mkAddr [80;97;116;114;105;107;32;70;195;164;108;116;115;116;114;195;182;109] [112;97;102;64;110;97;100;97;46;107;116;104;46;115;101]];
  (* Nathaniel Borenstein <nsb@thumper.bellcore.com> ~=?iso-8859-8?b?7eXs~SDv4SDp7Oj08A==?=~ *) expects [78;97;116;104;97;110;105;101;108;32;66;111;114;101;110;115;116;101;105;110;32;60;110;115;98;64;116;104;117;109;112;101;114;46;98;101;108;108;99;111;114;101;46;99;111;109;62;32;40;61;63;105;115;111;45;56;56;53;57;45;56;63;98;63;55;101;88;115;43;83;68;118;52;83;68;112;55;79;106;48;56;65;61;61;63;61;41] [mkAddr [78;97;116;104;97;110;105;101;108;32;66;111;114;101;110;115;116;101;105;110] [110;115;98;64;116;104;117;109;112;101;114;46;98;101;108;108;99;111;114;101;46;99;111;109]];
  (* =?UTF-8?B?PEJlemUgam3DqW5hPg==?= <user@domain.com> *) expects [61;63;85;84;70;45;56;63;66;63;80;69;74;108;101;109;85;103;97;109;51;68;113;87;53;104;80;103;61;61;63;61;32;60;117;115;101;114;64;100;111;109;97;105;110;46;99;111;109;62] [mkAddr [60;66;101;122;101;32;106;109;195;169;110;97;62] [117;115;101;114;64;100;111;109;97;105;110;46;99;111;109]];
  (* First Middle =?utf-8?Q?Last?= <user@domain.com> *) expects [70;105;114;115;116;32;77;105;100;100;108;101;32;61;63;117;116;102;45;56;63;81;63;76;97;115;116;63;61;32;60;117;115;101;114;64;100;111;109;97;105;110;46;99;111;109;62] [mkAddr [70;105;114;115;116;32;77;105;100;100;108;101;32;76;97;115;116] [117;115;101;114;64;100;111;109;97;105;110;46;99;111;109]];
  (* First Middle=?utf-8?Q?Last?= <user@domain.com> *) expects [70;105;114;115;116;32;77;105;100;100;108;101;61;63;117;116;102;45;56;63;81;63;76;97;115;116;63;61;32;60;117;115;101;114;64;100;111;109;97;105;110;46;99;111;109;62] [mkAddr [70;105;114;115;116;32;77;105;100;100;108;101;61;63;117;116;102;45;56;63;81;63;76;97;115;116;63;61] [117;115;101;114;64;100;111;109;97;105;110;46;99;111;109]];
  (* First Middle =?utf-8?Q?Last?=<user@domain.com> *) expects [70;105;114;115;116;32;77;105;100;100;108;101;32;61;63;117;116;102;45;56;63;81;63;76;97;115;116;63;61;60;117;115;101;114;64;100;111;109;97;105;110;46;99;111;109;62] [mkAddr [70;105;114;115;116;32;77;105;100;100;108;101;32;76;97;115;116] [117;115;101;114;64;100;111;109;97;105;110;46;99;111;109]];
  (* First =?utf-8?Q?Middle?= =?utf-8?Q?Last?= <user@domain.com> *) expects [70;105;114;115;116;32;61;63;117;116;102;45;56;63;81;63;77;105;100;100;108;101;63;61;32;61;63;117;116;102;45;56;63;81;63;76;97;115;116;63;61;32;60;117;115;101;114;64;100;111;109;97;105;110;46;99;111;109;62] [mkAddr [70;105;114;115;116;32;77;105;100;100;108;101;76;97;115;116] [117;115;101;114;64;100;111;109;97;105;110;46;99;111;109]];
  (* First =?utf-8?Q?Middle?==?utf-8?Q?Last?= <user@domain.com> *) expects [70;105;114;115;116;32;61;63;117;116;102;45;56;63;81;63;77;105;100;100;108;101;63;61;61;63;117;116;102;45;56;63;81;63;76;97;115;116;63;61;32;60;117;115;101;114;64;100;111;109;97;105;110;46;99;111;109;62] [mkAddr [70;105;114;115;116;32;77;105;100;100;108;101;76;97;115;116] [117;115;101;114;64;100;111;109;97;105;110;46;99;111;109]];
  (* First ~Middle~=?utf-8?Q?Last?= <user@domain.com> *) expects [70;105;114;115;116;32;34;77;105;100;100;108;101;34;61;63;117;116;102;45;56;63;81;63;76;97;115;116;63;61;32;60;117;115;101;114;64;100;111;109;97;105;110;46;99;111;109;62] [mkAddr [70;105;114;115;116;32;77;105;100;100;108;101;32;76;97;115;116] [117;115;101;114;64;100;111;109;97;105;110;46;99;111;109]];
  (* First ~Middle~ =?utf-8?Q?Last?= <user@domain.com> *) expects [70;105;114;115;116;32;34;77;105;100;100;108;101;34;32;61;63;117;116;102;45;56;63;81;63;76;97;115;116;63;61;32;60;117;115;101;114;64;100;111;109;97;105;110;46;99;111;109;62] [mkAddr [70;105;114;115;116;32;77;105;100;100;108;101;32;76;97;115;116] [117;115;101;114;64;100;111;109;97;105;110;46;99;111;109]];
  (* First ~Middle~ =?utf-8?Q?Last?=<user@domain.com> *) expects [70;105;114;115;116;32;34;77;105;100;100;108;101;34;32;61;63;117;116;102;45;56;63;81;63;76;97;115;116;63;61;60;117;115;101;114;64;100;111;109;97;105;110;46;99;111;109;62] [mkAddr [70;105;114;115;116;32;77;105;100;100;108;101;32;76;97;115;116] [117;115;101;114;64;100;111;109;97;105;110;46;99;111;109]];
  (* =?UTF-8?B?PEJlemUgam3DqW5hPg==?= <user@domain.com> *) expects [61;63;85;84;70;45;56;63;66;63;80;69;74;108;101;109;85;103;97;109;51;68;113;87;53;104;80;103;61;61;63;61;32;60;117;115;101;114;64;100;111;109;97;105;110;46;99;111;109;62] [mkAddr [60;66;101;122;101;32;106;109;195;169;110;97;62] [117;115;101;114;64;100;111;109;97;105;110;46;99;111;109]]
] = true).

Succeed Definition TestParseAddressList := (@eq_refl bool true <: forallb (fun b => b) [
  (* Alice <alice@example.com>, Bob <bob@example.com>, Eve <eve@example.com> *) expects [65;108;105;99;101;32;60;97;108;105;99;101;64;101;120;97;109;112;108;101;46;99;111;109;62;44;32;66;111;98;32;60;98;111;98;64;101;120;97;109;112;108;101;46;99;111;109;62;44;32;69;118;101;32;60;101;118;101;64;101;120;97;109;112;108;101;46;99;111;109;62] [mkAddr [65;108;105;99;101] [97;108;105;99;101;64;101;120;97;109;112;108;101;46;99;111;109]; mkAddr [66;111;98] [98;111;98;64;101;120;97;109;112;108;101;46;99;111;109]; mkAddr [69;118;101] [101;118;101;64;101;120;97;109;112;108;101;46;99;111;109]];
  (* Alice <alice@example.com>; Bob <bob@example.com>; Eve <eve@example.com> *) expects [65;108;105;99;101;32;60;97;108;105;99;101;64;101;120;97;109;112;108;101;46;99;111;109;62;59;32;66;111;98;32;60;98;111;98;64;101;120;97;109;112;108;101;46;99;111;109;62;59;32;69;118;101;32;60;101;118;101;64;101;120;97;109;112;108;101;46;99;111;109;62] [mkAddr [65;108;105;99;101] [97;108;105;99;101;64;101;120;97;109;112;108;101;46;99;111;109]; mkAddr [66;111;98] [98;111;98;64;101;120;97;109;112;108;101;46;99;111;109]; mkAddr [69;118;101] [101;118;101;64;101;120;97;109;112;108;101;46;99;111;109]];
  (* Ed Jones <c@a.test>,joe@where.test,John <jdoe@one.test> *) expects [69;100;32;74;111;110;101;115;32;60;99;64;97;46;116;101;115;116;62;44;106;111;101;64;119;104;101;114;101;46;116;101;115;116;44;74;111;104;110;32;60;106;100;111;101;64;111;110;101;46;116;101;115;116;62] [mkAddr [69;100;32;74;111;110;101;115] [99;64;97;46;116;101;115;116]; mkAddr [] [106;111;101;64;119;104;101;114;101;46;116;101;115;116]; mkAddr [74;111;104;110] [106;100;111;101;64;111;110;101;46;116;101;115;116]];
  (* name ~ignore comment~  <username@server.com>,  ~Comment as name~ username2@server.com *) expects [110;97;109;101;32;40;105;103;110;111;114;101;32;99;111;109;109;101;110;116;41;32;32;60;117;115;101;114;110;97;109;101;64;115;101;114;118;101;114;46;99;111;109;62;44;32;32;40;67;111;109;109;101;110;116;32;97;115;32;110;97;109;101;41;32;117;115;101;114;110;97;109;101;50;64;115;101;114;118;101;114;46;99;111;109] [mkAddr [110;97;109;101] [117;115;101;114;110;97;109;101;64;115;101;114;118;101;114;46;99;111;109]; mkAddr [] [117;115;101;114;110;97;109;101;50;64;115;101;114;118;101;114;46;99;111;109]];
  (* ~normal name~  <username@server.com>, ~comma, name~ <address@server.com> *) expects [34;110;111;114;109;97;108;32;110;97;109;101;34;32;32;60;117;115;101;114;110;97;109;101;64;115;101;114;118;101;114;46;99;111;109;62;44;32;34;99;111;109;109;97;44;32;110;97;109;101;34;32;60;97;100;100;114;101;115;115;64;115;101;114;118;101;114;46;99;111;109;62] [mkAddr [110;111;114;109;97;108;32;110;97;109;101] [117;115;101;114;110;97;109;101;64;115;101;114;118;101;114;46;99;111;109]; mkAddr [99;111;109;109;97;44;32;110;97;109;101] [97;100;100;114;101;115;115;64;115;101;114;118;101;114;46;99;111;109]];
  (* ~comma, one~  <username@server.com>, ~comma, two~ <address@server.com> *) expects [34;99;111;109;109;97;44;32;111;110;101;34;32;32;60;117;115;101;114;110;97;109;101;64;115;101;114;118;101;114;46;99;111;109;62;44;32;34;99;111;109;109;97;44;32;116;119;111;34;32;60;97;100;100;114;101;115;115;64;115;101;114;118;101;114;46;99;111;109;62] [mkAddr [99;111;109;109;97;44;32;111;110;101] [117;115;101;114;110;97;109;101;64;115;101;114;118;101;114;46;99;111;109]; mkAddr [99;111;109;109;97;44;32;116;119;111] [97;100;100;114;101;115;115;64;115;101;114;118;101;114;46;99;111;109]];
  (* normal name  <username@server.com>, ~comment~All.~around~address@~the~server.com *) expects [110;111;114;109;97;108;32;110;97;109;101;32;32;60;117;115;101;114;110;97;109;101;64;115;101;114;118;101;114;46;99;111;109;62;44;32;40;99;111;109;109;101;110;116;41;65;108;108;46;40;97;114;111;117;110;100;41;97;100;100;114;101;115;115;64;40;116;104;101;41;115;101;114;118;101;114;46;99;111;109] [mkAddr [110;111;114;109;97;108;32;110;97;109;101] [117;115;101;114;110;97;109;101;64;115;101;114;118;101;114;46;99;111;109]; mkAddr [] [65;108;108;46;97;100;100;114;101;115;115;64;115;101;114;118;101;114;46;99;111;109]];
  (* normal name  <username@server.com>, All.~~comma, in comment~~address@~the~server.com *) expects [110;111;114;109;97;108;32;110;97;109;101;32;32;60;117;115;101;114;110;97;109;101;64;115;101;114;118;101;114;46;99;111;109;62;44;32;65;108;108;46;40;34;99;111;109;109;97;44;32;105;110;32;99;111;109;109;101;110;116;34;41;97;100;100;114;101;115;115;64;40;116;104;101;41;115;101;114;118;101;114;46;99;111;109] [mkAddr [110;111;114;109;97;108;32;110;97;109;101] [117;115;101;114;110;97;109;101;64;115;101;114;118;101;114;46;99;111;109]; mkAddr [] [65;108;108;46;97;100;100;114;101;115;115;64;115;101;114;118;101;114;46;99;111;109]]
] = true).

Succeed Definition TestParseGroup := (@eq_refl bool true <: forallb (fun b => b) [
  (* A Group:Ed Jones <c@a.test>,joe@where.test,John <jdoe@one.test>; *) expects [65;32;71;114;111;117;112;58;69;100;32;74;111;110;101;115;32;60;99;64;97;46;116;101;115;116;62;44;106;111;101;64;119;104;101;114;101;46;116;101;115;116;44;74;111;104;110;32;60;106;100;111;101;64;111;110;101;46;116;101;115;116;62;59] [mkAddr [69;100;32;74;111;110;101;115] [99;64;97;46;116;101;115;116]; mkAddr [] [106;111;101;64;119;104;101;114;101;46;116;101;115;116]; mkAddr [74;111;104;110] [106;100;111;101;64;111;110;101;46;116;101;115;116]];
  (* undisclosed recipients:; *) expects [117;110;100;105;115;99;108;111;115;101;100;32;114;101;99;105;112;105;101;110;116;115;58;59] [];
  (* undisclosed recipients: *) expects [117;110;100;105;115;99;108;111;115;101;100;32;114;101;99;105;112;105;101;110;116;115;58] [];
  (* ~undisclosed recipients:~ *) expects [34;117;110;100;105;115;99;108;111;115;101;100;32;114;101;99;105;112;105;101;110;116;115;58;34] [];
  (* ~Empty list~~start~Hidden recipients  :~nobody~that I know~~  ; *) expects [40;69;109;112;116;121;32;108;105;115;116;41;40;115;116;97;114;116;41;72;105;100;100;101;110;32;114;101;99;105;112;105;101;110;116;115;32;32;58;40;110;111;98;111;100;121;40;116;104;97;116;32;73;32;107;110;111;119;41;41;32;32;59] []
] = true).

Succeed Definition TestParseRejectedAddresses := (@eq_refl bool true <: forallb (fun b => b) [
  (* ~comma, name~  <username@server.com>, another, name <address@server.com> *) rejects [34;99;111;109;109;97;44;32;110;97;109;101;34;32;32;60;117;115;101;114;110;97;109;101;64;115;101;114;118;101;114;46;99;111;109;62;44;32;97;110;111;116;104;101;114;44;32;110;97;109;101;32;60;97;100;100;114;101;115;115;64;115;101;114;118;101;114;46;99;111;109;62];
  (* username *) rejects [117;115;101;114;110;97;109;101];
  (* =?ISO-8859-2?Q?First_Last?= <user@domain.com>, <user@domain.com,First~AAA~BBB~CCC,> *) rejects [61;63;73;83;79;45;56;56;53;57;45;50;63;81;63;70;105;114;115;116;95;76;97;115;116;63;61;32;60;117;115;101;114;64;100;111;109;97;105;110;46;99;111;109;62;44;32;60;117;115;101;114;64;100;111;109;97;105;110;46;99;111;109;44;70;105;114;115;116;47;65;65;65;47;66;66;66;47;67;67;67;44;62];
  (* user@domain...com *) rejects [117;115;101;114;64;100;111;109;97;105;110;46;46;46;99;111;109];
  (* =?windows-1250?Q?Spr=E1vce_syst=E9mu?= *) rejects [61;63;119;105;110;100;111;119;115;45;49;50;53;48;63;81;63;83;112;114;61;69;49;118;99;101;95;115;121;115;116;61;69;57;109;117;63;61];
  (* ~~user@domain.com.~~ *) rejects [34;39;117;115;101;114;64;100;111;109;97;105;110;46;99;111;109;46;39;34];
  (* <this is not an email address> *) rejects [60;116;104;105;115;32;105;115;32;110;111;116;32;97;110;32;101;109;97;105;108;32;97;100;100;114;101;115;115;62]
] = true).

Succeed Definition TestIsEmailValidCategory := (@eq_refl bool true <: forallb (fun b => b) [
  accepted [116;101;115;116;64;105;111];
  accepted [116;101;115;116;64;105;97;110;97;46;111;114;103];
  accepted [116;101;115;116;64;110;111;109;105;110;101;116;46;111;114;103;46;117;107];
  accepted [116;101;115;116;64;97;98;111;117;116;46;109;117;115;101;117;109];
  accepted [97;64;105;97;110;97;46;111;114;103];
  accepted [116;101;115;116;46;116;101;115;116;64;105;97;110;97;46;111;114;103];
  accepted [33;35;36;37;38;96;42;43;47;61;63;94;96;123;124;125;126;64;105;97;110;97;46;111;114;103];
  accepted [49;50;51;64;105;97;110;97;46;111;114;103];
  accepted [116;101;115;116;64;49;50;51;46;99;111;109];
  accepted [97;98;99;100;101;102;103;104;105;106;107;108;109;110;111;112;113;114;115;116;117;118;119;120;121;122;97;98;99;100;101;102;103;104;105;106;107;108;109;110;111;112;113;114;115;116;117;118;119;120;121;122;97;98;99;100;101;102;103;104;105;107;108;109;64;105;97;110;97;46;111;114;103];
  accepted [116;101;115;116;64;109;97;115;111;110;45;100;105;120;111;110;46;99;111;109];
  accepted [116;101;115;116;64;99;45;45;110;46;99;111;109];
  accepted [116;101;115;116;64;120;110;45;45;104;120;97;106;98;104;101;103;50;97;122;51;97;108;46;120;110;45;45;106;120;97;108;112;100;108;112];
  accepted [120;110;45;45;116;101;115;116;64;105;97;110;97;46;111;114;103]
] = true).

Succeed Definition TestParseDateTime := (@eq_refl bool true <: forallb (fun b => b) [
  (* Fri, 21 Nov 1997 09:55:06 *) expects_time [70;114;105;44;32;50;49;32;78;111;118;32;49;57;57;55;32;48;57;58;53;53;58;48;54] (1997, 11, 21, (9, 55, 6), 0)%Z;
  (* Fri, 21 Nov 1997 09:55:06 -0600 *) expects_time [70;114;105;44;32;50;49;32;78;111;118;32;49;57;57;55;32;48;57;58;53;53;58;48;54;32;45;48;54;48;48] (1997, 11, 21, (9, 55, 6), -21600)%Z;
  (* Tue, 1 Jul 2003 10:52:37 ~0200 *) expects_time [84;117;101;44;32;49;32;74;117;108;32;50;48;48;51;32;49;48;58;53;50;58;51;55;32;43;48;50;48;48] (2003, 7, 1, (10, 52, 37), 7200)%Z;
  (* Thu, 13 Feb 1969 23:32:54 -0330 *) expects_time [84;104;117;44;32;49;51;32;70;101;98;32;49;57;54;57;32;50;51;58;51;50;58;53;52;32;45;48;51;51;48] (1969, 2, 13, (23, 32, 54), -12600)%Z;
  (* Thu, 13 Feb 1969 23:32 -0330 ~Newfoundland Time~ *) expects_time [84;104;117;44;32;49;51;32;70;101;98;32;49;57;54;57;32;50;51;58;51;50;32;45;48;51;51;48;32;40;78;101;119;102;111;117;110;100;108;97;110;100;32;84;105;109;101;41] (1969, 2, 13, (23, 32, 0), -12600)%Z;
  (* 2 Jan 2006 15:04:05 -0700 *) expects_time [50;32;74;97;110;32;50;48;48;54;32;49;53;58;48;52;58;48;53;32;45;48;55;48;48] (2006, 1, 2, (15, 4, 5), -25200)%Z;
  (* 2 Jan 2006 15:04:05 MST *) expects_time [50;32;74;97;110;32;50;48;48;54;32;49;53;58;48;52;58;48;53;32;77;83;84] (2006, 1, 2, (15, 4, 5), -25200)%Z;
  (* 2 Jan 2006 15:04 -0700 *) expects_time [50;32;74;97;110;32;50;48;48;54;32;49;53;58;48;52;32;45;48;55;48;48] (2006, 1, 2, (15, 4, 0), -25200)%Z;
  (* 2 Jan 2006 15:04 MST *) expects_time [50;32;74;97;110;32;50;48;48;54;32;49;53;58;48;52;32;77;83;84] (2006, 1, 2, (15, 4, 0), -25200)%Z;
  (* 2 Jan 06 15:04:05 -0700 *) expects_time [50;32;74;97;110;32;48;54;32;49;53;58;48;52;58;48;53;32;45;48;55;48;48] (2006, 1, 2, (15, 4, 5), -25200)%Z;
  (* 2 Jan 06 15:04:05 MST *) expects_time [50;32;74;97;110;32;48;54;32;49;53;58;48;52;58;48;53;32;77;83;84] (2006, 1, 2, (15, 4, 5), -25200)%Z;
  (* 2 Jan 06 15:04 -0700 *) expects_time [50;32;74;97;110;32;48;54;32;49;53;58;48;52;32;45;48;55;48;48] (2006, 1, 2, (15, 4, 0), -25200)%Z;
  (* 2 Jan 06 15:04 MST *) expects_time [50;32;74;97;110;32;48;54;32;49;53;58;48;52;32;77;83;84] (2006, 1, 2, (15, 4, 0), -25200)%Z;
  (* 02 Jan 2006 15:04:05 -0700 *) expects_time [48;50;32;74;97;110;32;50;48;48;54;32;49;53;58;48;52;58;48;53;32;45;48;55;48;48] (2006, 1, 2, (15, 4, 5), -25200)%Z;
  (* 02 Jan 2006 15:04:05 MST *) expects_time [48;50;32;74;97;110;32;50;48;48;54;32;49;53;58;48;52;58;48;53;32;77;83;84] (2006, 1, 2, (15, 4, 5), -25200)%Z;
  (* 02 Jan 2006 15:04 -0700 *) expects_time [48;50;32;74;97;110;32;50;48;48;54;32;49;53;58;48;52;32;45;48;55;48;48] (2006, 1, 2, (15, 4, 0), -25200)%Z;
  (* 02 Jan 2006 15:04 MST *) expects_time [48;50;32;74;97;110;32;50;48;48;54;32;49;53;58;48;52;32;77;83;84] (2006, 1, 2, (15, 4, 0), -25200)%Z;
  (* 02 Jan 06 15:04:05 -0700 *) expects_time [48;50;32;74;97;110;32;48;54;32;49;53;58;48;52;58;48;53;32;45;48;55;48;48] (2006, 1, 2, (15, 4, 5), -25200)%Z;
  (* 02 Jan 06 15:04:05 MST *) expects_time [48;50;32;74;97;110;32;48;54;32;49;53;58;48;52;58;48;53;32;77;83;84] (2006, 1, 2, (15, 4, 5), -25200)%Z;
  (* 02 Jan 06 15:04 -0700 *) expects_time [48;50;32;74;97;110;32;48;54;32;49;53;58;48;52;32;45;48;55;48;48] (2006, 1, 2, (15, 4, 0), -25200)%Z;
  (* 02 Jan 06 15:04 MST *) expects_time [48;50;32;74;97;110;32;48;54;32;49;53;58;48;52;32;77;83;84] (2006, 1, 2, (15, 4, 0), -25200)%Z;
  (* Mon, 2 Jan 2006 15:04:05 -0700 *) expects_time [77;111;110;44;32;50;32;74;97;110;32;50;48;48;54;32;49;53;58;48;52;58;48;53;32;45;48;55;48;48] (2006, 1, 2, (15, 4, 5), -25200)%Z;
  (* Mon, 2 Jan 2006 15:04:05 MST *) expects_time [77;111;110;44;32;50;32;74;97;110;32;50;48;48;54;32;49;53;58;48;52;58;48;53;32;77;83;84] (2006, 1, 2, (15, 4, 5), -25200)%Z;
  (* Mon, 2 Jan 2006 15:04 -0700 *) expects_time [77;111;110;44;32;50;32;74;97;110;32;50;48;48;54;32;49;53;58;48;52;32;45;48;55;48;48] (2006, 1, 2, (15, 4, 0), -25200)%Z;
  (* Mon, 2 Jan 2006 15:04 MST *) expects_time [77;111;110;44;32;50;32;74;97;110;32;50;48;48;54;32;49;53;58;48;52;32;77;83;84] (2006, 1, 2, (15, 4, 0), -25200)%Z;
  (* Mon, 2 Jan 06 15:04:05 -0700 *) expects_time [77;111;110;44;32;50;32;74;97;110;32;48;54;32;49;53;58;48;52;58;48;53;32;45;48;55;48;48] (2006, 1, 2, (15, 4, 5), -25200)%Z;
  (* Mon, 2 Jan 06 15:04:05 MST *) expects_time [77;111;110;44;32;50;32;74;97;110;32;48;54;32;49;53;58;48;52;58;48;53;32;77;83;84] (2006, 1, 2, (15, 4, 5), -25200)%Z;
  (* Mon, 2 Jan 06 15:04 -0700 *) expects_time [77;111;110;44;32;50;32;74;97;110;32;48;54;32;49;53;58;48;52;32;45;48;55;48;48] (2006, 1, 2, (15, 4, 0), -25200)%Z;
  (* Mon, 2 Jan 06 15:04 MST *) expects_time [77;111;110;44;32;50;32;74;97;110;32;48;54;32;49;53;58;48;52;32;77;83;84] (2006, 1, 2, (15, 4, 0), -25200)%Z;
  (* Mon, 02 Jan 2006 15:04:05 -0700 *) expects_time [77;111;110;44;32;48;50;32;74;97;110;32;50;48;48;54;32;49;53;58;48;52;58;48;53;32;45;48;55;48;48] (2006, 1, 2, (15, 4, 5), -25200)%Z;
  (* Mon, 02 Jan 2006 15:04:05 MST *) expects_time [77;111;110;44;32;48;50;32;74;97;110;32;50;48;48;54;32;49;53;58;48;52;58;48;53;32;77;83;84] (2006, 1, 2, (15, 4, 5), -25200)%Z;
  (* Mon, 02 Jan 2006 15:04 -0700 *) expects_time [77;111;110;44;32;48;50;32;74;97;110;32;50;48;48;54;32;49;53;58;48;52;32;45;48;55;48;48] (2006, 1, 2, (15, 4, 0), -25200)%Z;
  (* Mon, 02 Jan 2006 15:04 MST *) expects_time [77;111;110;44;32;48;50;32;74;97;110;32;50;48;48;54;32;49;53;58;48;52;32;77;83;84] (2006, 1, 2, (15, 4, 0), -25200)%Z;
  (* Mon, 02 Jan 06 15:04:05 -0700 *) expects_time [77;111;110;44;32;48;50;32;74;97;110;32;48;54;32;49;53;58;48;52;58;48;53;32;45;48;55;48;48] (2006, 1, 2, (15, 4, 5), -25200)%Z;
  (* Mon, 02 Jan 06 15:04:05 MST *) expects_time [77;111;110;44;32;48;50;32;74;97;110;32;48;54;32;49;53;58;48;52;58;48;53;32;77;83;84] (2006, 1, 2, (15, 4, 5), -25200)%Z;
  (* Mon, 02 Jan 06 15:04 -0700 *) expects_time [77;111;110;44;32;48;50;32;74;97;110;32;48;54;32;49;53;58;48;52;32;45;48;55;48;48] (2006, 1, 2, (15, 4, 0), -25200)%Z;
  (* Mon, 02 Jan 06 15:04 MST *) expects_time [77;111;110;44;32;48;50;32;74;97;110;32;48;54;32;49;53;58;48;52;32;77;83;84] (2006, 1, 2, (15, 4, 0), -25200)%Z;
  (* 21 Nov 97 09:55:06 GMT *) expects_time [50;49;32;78;111;118;32;57;55;32;48;57;58;53;53;58;48;54;32;71;77;84] (1997, 11, 21, (9, 55, 6), 0)%Z;
  (* Wed, 01 Jan 2020 12:00:00 UTC *) expects_time [87;101;100;44;32;48;49;32;74;97;110;32;50;48;50;48;32;49;50;58;48;48;58;48;48;32;85;84;67] (2020, 1, 1, (12, 0, 0), 0)%Z;
  (* Wed, 01 Jan 2020 13:00:00 UTC *) expects_time [87;101;100;44;32;48;49;32;74;97;110;32;50;48;50;48;32;49;51;58;48;48;58;48;48;32;85;84;67] (2020, 1, 1, (13, 0, 0), 0)%Z;
  (* Wed, 01 Jan 2020 12:30:00 UTC *) expects_time [87;101;100;44;32;48;49;32;74;97;110;32;50;48;50;48;32;49;50;58;51;48;58;48;48;32;85;84;67] (2020, 1, 1, (12, 30, 0), 0)%Z;
  (* Mon, 28 Jan 2019 20:59:01 0000 *) expects_time [77;111;110;44;32;50;56;32;74;97;110;32;50;48;49;57;32;50;48;58;53;57;58;48;49;32;48;48;48;48] (2019, 1, 28, (20, 59, 1), 0)%Z;
  (* Mon, 25 Sep 2017 5:25:40 ~0200 *) expects_time [77;111;110;44;32;50;53;32;83;101;112;32;50;48;49;55;32;53;58;50;53;58;52;48;32;43;48;50;48;48] (2017, 9, 25, (5, 25, 40), 7200)%Z
] = true).

Succeed Definition TestParseDateTimeRejected := (@eq_refl bool true <: forallb (fun b => b) [
  (* Mon, 25 Sep 2017 5:25:40 ~02 *) rejects_time [77;111;110;44;32;50;53;32;83;101;112;32;50;48;49;55;32;53;58;50;53;58;52;48;32;43;48;50]
] = true).
