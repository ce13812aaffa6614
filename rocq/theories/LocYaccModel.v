(* Model of the generated parser of locale definitions: pkg/locale/y.go (goyacc's output for localedef.y), the actions
   of localedef.y and Lexer.Lex of localelex.go.

   The tables are y.go's, number for number.  Simplifications: the error recovery (y.go:766-805) is not
   modelled, because Lexer.Error is the embedded lexer.L's, which panics when no ErrorHandler has been installed and
   none ever is (the message it panics with is in LocErrModel.v); the debugging output (yyDebug is 0) is left out; of def only the three
   fields some action can assign are kept; a run of Parse that waits for ever on the lexer's channel is the outcome
   Waits. *)
From Verif Require Import GoBase.
Local Open Scope Z_scope.

(* pkg/locale/y.go:258-262, copied *)
Definition yyExca : list Z := [
  -1; 1; 1; -1; -2; 0
].

(* pkg/locale/y.go:268-317, copied *)
Definition yyAct : list Z := [
  248; 199; 226; 204; 190; 179; 166; 173; 165; 236; 145; 149; 131; 247; 156; 203; 181; 69; 105; 139; 315; 228; 234;
  140; 141; 142; 143; 272; 230; 134; 225; 146; 97; 309; 305; 138; 92; 90; 88; 86; 84; 82; 80; 81; 83; 85; 87; 89; 91;
  93; 79; 78; 76; 74; 75; 77; 135; 159; 231; 196; 195; 94; 205; 92; 90; 88; 86; 84; 82; 80; 81; 83; 85; 87; 89; 91;
  93; 79; 78; 76; 74; 75; 77; 151; 185; 184; 277; 265; 94; 261; 257; 139; 244; 228; 176; 140; 141; 142; 143; 182;
  230; 291; 290; 268; 178; 177; 172; 186; 229; 240; 139; 206; 285; 286; 140; 141; 142; 143; 251; 232; 310; 253; 200;
  216; 207; 213; 193; 211; 191; 259; 231; 65; 70; 201; 202; 139; 192; 285; 286; 140; 141; 142; 143; 181; 139; 175;
  136; 215; 140; 141; 142; 143; 60; 61; 59; 150; 159; 139; 58; 227; 64; 140; 141; 142; 143; 278; 262; 57; 262; 258;
  221; 139; 192; 237; 175; 140; 141; 142; 143; 139; 229; 157; 160; 140; 141; 142; 143; 133; 161; 100; 101; 54; 53;
  187; 218; 174; 208; 252; 233; 308; 96; 180; 217; 62; 214; 313; 212; 312; 33; 256; 60; 61; 59; 269; 154; 67; 66;
  162; 102; 263; 311; 301; 267; 153; 287; 271; 297; 67; 66; 292; 237; 275; 288; 304; 167; 168; 169; 284; 276; 279;
  132; 283; 282; 100; 101; 163; 299; 152; 294; 289; 5; 293; 20; 274; 28; 6; 7; 294; 20; 298; 295; 62; 302; 222; 294;
  266; 303; 264; 21; 167; 168; 169; 102; 306; 21; 260; 255; 28; 25; 227; 284; 307; 254; 139; 25; 157; 160; 140; 141;
  142; 143; 250; 161; 24; 171; 249; 23; 246; 245; 24; 241; 235; 23; 223; 219; 209; 314; 139; 130; 129; 104; 140; 141;
  142; 143; 128; 270; 22; 273; 127; 126; 162; 201; 22; 118; 119; 120; 122; 121; 109; 114; 115; 116; 117; 110; 111;
  112; 113; 118; 119; 120; 122; 121; 109; 114; 115; 116; 117; 110; 111; 112; 113; 49; 125; 124; 170; 123; 243; 242;
  148; 36; 37; 38; 39; 40; 41; 42; 43; 44; 45; 46; 47; 48; 50; 51; 139; 30; 49; 300; 140; 141; 142; 143; 32; 133; 36;
  37; 38; 39; 40; 41; 42; 43; 44; 45; 46; 47; 48; 50; 51; 139; 29; 281; 239; 140; 141; 142; 143; 139; 210; 238; 239;
  140; 141; 142; 143; 296; 198; 189; 4; 3; 108; 27; 26; 107; 106; 103; 19; 197; 99; 194; 98; 95; 18; 188; 73; 72;
  183; 71; 68; 17; 63; 16; 224; 158; 164; 220; 155; 56; 55; 52; 15; 147; 144; 35; 137; 34; 31; 14; 280; 13; 12; 11;
  10; 9; 8; 2; 1
].

(* pkg/locale/y.go:318-352, copied *)
Definition yyPact : list Z := [
  238; -1000; 238; 232; -1000; -1000; 396; 371; -1000; -1000; -1000; -1000; -1000; -1000; 364; 173; 141; -2; 181;
  291; 340; 338; 337; 304; 303; 299; 232; -1000; -1000; 293; 292; 339; 52; -1000; 370; -65; 346; -1000; -1000; -1000;
  -1000; -1000; -1000; -1000; -1000; -1000; -1000; -1000; -1000; -1000; -1000; -1000; 110; 52; -1000; 115; 278;
  -1000; -1000; 229; 348; 286; 12; 129; 52; -1000; 11; 10; -29; 52; -1000; -9; 101; 412; -1000; -1000; -1000; -1000;
  -1000; -1000; -1000; -1000; -1000; -1000; -1000; -1000; -1000; -1000; -1000; -1000; -1000; -1000; -1000; -1000;
  -1000; 127; 52; -1000; -34; 411; -1000; -1000; -1000; 277; 52; -1000; -32; -32; -32; -1000; -1000; -1000; -1000;
  -1000; -1000; -1000; -1000; -1000; -1000; -1000; -1000; -1000; -1000; -1000; -1000; -1000; -1000; -1000; -1000;
  -1000; -1000; -1000; -1000; 176; 289; -1000; 405; 111; -1000; -1000; -1000; -1000; -1000; -1000; 109; -1000; 370;
  107; -1000; -1000; 158; 288; -1000; -1000; -1000; 174; -1000; 287; 14; -1000; -1000; -1000; -1000; -1000; 103; -75;
  -1000; -1000; -1000; -1000; 285; -1000; 403; -1000; -1000; 24; 284; 343; 342; -1000; -1000; 28; 282; 281; 370;
  -1000; 279; 275; 102; -1000; -1000; -1000; 60; 266; 260; 370; -1000; 74; -1000; -1000; -1000; 83; 259; 73; -1000;
  370; 251; 71; 249; 142; 9; -1000; 302; -1000; -65; -70; -1000; 305; 237; 110; -1000; -1000; 222; -1000; 70; -1000;
  -1000; -1000; -1000; 395; -1000; -1000; -1000; 194; 194; -1000; 130; -1000; -1000; -1000; 216; 100; 8; 7; 213; 98;
  -1000; 166; -1000; -1000; -1000; -1000; 410; 210; 91; -1000; 152; -1000; 372; 205; 88; -1000; -32; 139; -1000;
  -1000; -1000; -1000; -1000; -1000; -61; -1000; 370; -1000; -1000; -1000; -1000; -1000; 86; 105; 26; -1000; -75;
  -1000; -1000; -1000; -1000; 204; -1000; -1000; 191; 189; -1000; -1000; -1000; -1000; -1000; -1000; -1000; -1000;
  -1000; -1000; -1000; -1000; -1000; 370; -78; -1000; -1000; -1000; -1000; -1000; -1000; -1000; -1000; -1000
].

(* pkg/locale/y.go:353-363, copied *)
Definition yyPgo : list Z := [
  0; 467; 466; 420; 419; 250; 465; 464; 463; 462; 461; 460; 13; 0; 9; 459; 29; 458; 457; 12; 208; 456; 455; 454; 453;
  452; 10; 451; 450; 11; 191; 449; 167; 158; 448; 447; 446; 445; 8; 6; 14; 444; 443; 2; 442; 441; 7; 131; 440; 439;
  5; 132; 438; 437; 436; 435; 434; 433; 432; 4; 32; 431; 430; 429; 428; 427; 426; 1; 18; 425; 15; 424; 3; 421
].

(* pkg/locale/y.go:364-386, copied *)
Definition yyR1 : list Z := [
  0; 1; 1; 2; 2; 4; 4; 3; 3; 5; 5; 5; 5; 5; 5; 12; 12; 13; 13; 13; 13; 13; 14; 14; 14; 14; 14; 14; 15; 15; 16; 16; 6;
  6; 17; 18; 18; 20; 20; 20; 25; 25; 21; 21; 21; 21; 21; 21; 21; 21; 21; 21; 21; 21; 21; 22; 22; 22; 23; 23; 24; 24;
  26; 19; 7; 7; 27; 28; 28; 31; 31; 31; 31; 32; 33; 33; 30; 34; 34; 37; 37; 38; 38; 39; 39; 39; 35; 35; 40; 40; 40;
  41; 41; 41; 41; 42; 42; 42; 43; 43; 43; 43; 43; 43; 43; 36; 29; 8; 8; 44; 45; 45; 47; 47; 46; 9; 9; 48; 49; 49; 51;
  51; 51; 51; 52; 52; 52; 52; 52; 52; 53; 53; 54; 54; 54; 54; 54; 54; 54; 54; 54; 54; 54; 54; 54; 54; 55; 56; 56; 50;
  10; 10; 57; 58; 58; 60; 60; 61; 61; 62; 62; 63; 64; 64; 59; 11; 11; 65; 66; 66; 68; 68; 68; 69; 69; 69; 69; 69; 71;
  71; 71; 71; 73; 73; 73; 73; 73; 70; 70; 72; 67
].

(* pkg/locale/y.go:387-409, copied *)
Definition yyR2 : list Z := [
  0; 2; 1; 2; 1; 3; 3; 2; 1; 1; 1; 1; 1; 1; 1; 2; 1; 1; 1; 1; 1; 1; 2; 2; 2; 1; 1; 1; 2; 1; 1; 3; 3; 5; 2; 2; 1; 3;
  3; 3; 3; 1; 1; 1; 1; 1; 1; 1; 1; 1; 1; 1; 1; 1; 1; 3; 5; 1; 1; 1; 3; 1; 5; 3; 3; 5; 2; 1; 2; 2; 2; 1; 1; 3; 2; 5;
  3; 2; 3; 3; 1; 3; 1; 1; 1; 1; 2; 1; 2; 3; 2; 1; 1; 1; 1; 3; 2; 1; 0; 1; 1; 3; 3; 1; 1; 2; 3; 3; 5; 2; 2; 1; 5; 5;
  3; 3; 5; 2; 2; 1; 3; 3; 3; 3; 1; 1; 1; 1; 1; 1; 3; 1; 1; 1; 1; 1; 1; 1; 1; 1; 1; 1; 1; 1; 1; 1; 1; 1; 3; 3; 3; 5;
  2; 2; 1; 3; 3; 1; 1; 3; 1; 1; 1; 3; 3; 3; 5; 2; 2; 1; 3; 3; 3; 1; 1; 1; 1; 1; 1; 1; 1; 1; 1; 1; 1; 1; 1; 3; 1; 3;
  3
].

(* pkg/locale/y.go:410-444, copied *)
Definition yyChk : list Z := [
  -1000; -1; -2; -3; -4; -5; 17; 18; -6; -7; -8; -9; -10; -11; -17; -27; -44; -48; -57; -65; 20; 36; 85; 64; 61; 46;
  -3; -4; -5; 5; 5; -18; 19; -20; -21; -23; 21; 22; 23; 24; 25; 26; 27; 28; 29; 30; 31; 32; 33; 13; 34; 35; -28; 19;
  -30; -31; -34; -32; -33; 39; 37; 38; 88; -45; 19; -47; 87; 86; -49; 19; -51; -52; -54; -55; 82; 83; 81; 84; 80; 79;
  71; 72; 70; 73; 69; 74; 68; 75; 67; 76; 66; 77; 65; 78; 90; -58; 19; -60; -61; -63; 62; 63; 91; -66; 19; -68; -69;
  -71; -73; 52; 57; 58; 59; 60; 53; 54; 55; 56; 47; 48; 49; 51; 50; 16; 16; 16; 16; 16; 16; 16; 16; -19; -20; 45;
  -16; 4; 94; -22; -13; 5; 9; 10; 11; 12; -24; -26; 96; -25; 13; -29; 45; -16; -30; -32; -33; -35; -40; 7; -41; -13;
  8; 14; 43; 16; -37; -38; -39; 40; 41; 42; 7; 8; 94; -46; -47; 45; -16; 94; 94; -50; -51; 45; -16; -53; 94; 93; 6;
  92; -56; 6; -59; -60; 45; -16; -62; 94; 93; -64; 6; -67; -68; 45; -16; -70; -72; 94; -72; -70; 20; 16; 4; 16; 95;
  16; 95; -13; 16; 95; 36; 16; -36; -40; 89; 16; -42; 16; -43; -13; 7; 94; 14; 44; 16; 95; 97; 16; -14; -13; 7; 8;
  85; 16; 15; 15; 64; 16; 16; -12; -13; 16; 16; 16; 95; 61; 16; 16; -12; 16; 95; 46; 16; 16; 95; -12; 16; 16; 16;
  -19; 94; -13; 14; -26; 97; 13; 16; -29; 16; 16; 95; -14; -15; 7; -38; -39; -13; 7; 8; 94; 16; -46; 94; 94; 16; -50;
  -13; 94; 6; 16; -59; 94; 6; 16; -67; -72; 94; 95; -13; -43; 94; 7; 94; 16; 16; 16; -13; 98
].

(* pkg/locale/y.go:445-479, copied *)
Definition yyDef : list Z := [
  0; -2; 0; 2; 4; 8; 0; 0; 9; 10; 11; 12; 13; 14; 0; 0; 0; 0; 0; 0; 0; 0; 0; 0; 0; 0; 1; 3; 7; 0; 0; 0; 0; 36; 0; 0;
  0; 42; 43; 44; 45; 46; 47; 48; 49; 50; 51; 52; 53; 54; 58; 59; 0; 0; 67; 0; 0; 71; 72; 0; 0; 0; 0; 0; 0; 111; 0; 0;
  0; 0; 119; 0; 0; 0; 124; 125; 126; 127; 128; 129; 132; 133; 134; 135; 136; 137; 138; 139; 140; 141; 142; 143; 144;
  145; 146; 0; 0; 154; 0; 0; 157; 158; 161; 0; 0; 169; 0; 0; 0; 173; 174; 175; 176; 177; 178; 179; 180; 181; 182;
  183; 184; 185; 186; 34; 66; 109; 117; 152; 167; 5; 6; 32; 35; 0; 0; 30; 0; 0; 57; 17; 18; 19; 20; 21; 0; 61; 0; 0;
  41; 64; 0; 0; 68; 69; 70; 0; 87; 0; 98; 91; 92; 93; 94; 77; 0; 80; 82; 83; 84; 85; 0; 74; 0; 107; 110; 0; 0; 0; 0;
  115; 118; 0; 0; 0; 0; 131; 0; 0; 0; 147; 150; 153; 0; 0; 0; 0; 160; 0; 162; 165; 168; 0; 0; 0; 188; 0; 0; 0; 0; 0;
  0; 37; 0; 38; 0; 0; 39; 0; 0; 0; 76; 86; 0; 88; 0; 90; 97; 99; 100; 0; 103; 104; 78; 0; 0; 73; 0; 25; 26; 27; 0; 0;
  0; 0; 0; 0; 120; 0; 16; 121; 122; 123; 0; 0; 0; 155; 0; 156; 0; 0; 0; 170; 0; 0; 171; 172; 63; 33; 31; 55; 0; 60;
  0; 40; 106; 65; 105; 89; 96; 0; 0; 26; 79; 81; 22; 23; 24; 0; 114; 108; 0; 0; 149; 116; 15; 130; 148; 164; 151;
  159; 163; 190; 166; 187; 189; 0; 0; 95; 101; 28; 102; 75; 112; 113; 56; 62
].

(* pkg/locale/y.go:480-488, copied *)
Definition yyTok1 : list Z := [
  1; 3; 3; 3; 3; 3; 3; 3; 3; 3; 3; 3; 3; 3; 3; 3; 3; 3; 3; 3; 3; 3; 3; 3; 3; 3; 3; 3; 3; 3; 3; 3; 3; 3; 94; 3; 3; 3;
  3; 3; 96; 98; 3; 3; 97; 3; 3; 3; 3; 3; 3; 3; 3; 3; 3; 3; 3; 3; 3; 95
].

(* pkg/locale/y.go:489-501, copied *)
Definition yyTok2 : list Z := [
  2; 3; 4; 5; 6; 7; 8; 9; 10; 11; 12; 13; 14; 15; 16; 17; 18; 19; 20; 21; 22; 23; 24; 25; 26; 27; 28; 29; 30; 31; 32;
  33; 34; 35; 36; 37; 38; 39; 40; 41; 42; 43; 44; 45; 46; 47; 48; 49; 50; 51; 52; 53; 54; 55; 56; 57; 58; 59; 60; 61;
  62; 63; 64; 65; 66; 67; 68; 69; 70; 71; 72; 73; 74; 75; 76; 77; 78; 79; 80; 81; 82; 83; 84; 85; 86; 87; 88; 89; 90;
  91; 92; 93
].

(* y.go:264,266,545 *)
Definition yyPrivate : Z := 57344.
Definition yyLast : Z := 468.
Definition yyFlag : Z := -1000.
(* localelex.go:103: the pseudo-token Lex skips *)
Definition WHITESPACE : Z := 123987654.

(* Indexing an array: None is the run-time panic of an index out of range. *)
Definition at_ (t : list Z) (i : Z) : option Z :=
  if i <? 0 then None else nth_error t (Z.to_nat i).

(* What the lexer sends over its channel (lexer.Token). *)
Record token := { t_type : Z; t_value : bytes }.

(* yySymType (localedef.y:46-48, y.go:55-58): a stack entry *)
Record entry := { yys : Z; val : bytes }.

(* The part of the package-level variable def (y.go:15; monetary.go) that any action assigns. *)
Record definition := {
  int_curr_symbol : bytes;
  int_frac_digits : Z;
  mon_grouping : list Z
}.

(* y.go:18-26 *)
Definition assignMonetaryString (d : definition) (tok : entry) (value : bytes) : definition :=
  if beqb (val tok) (B "int_curr_symbol")
  then {| int_curr_symbol := value; int_frac_digits := int_frac_digits d; mon_grouping := mon_grouping d |}
  else d.

(* y.go:28-39; None is the panic *)
Definition assignMonetaryNumber (d : definition) (tok : Z) (value : bytes) : option definition :=
  match atoi value with
  | None => None
  | Some n =>
      Some (if tok =? 57413 (* INT_FRAC_DIGITS_STR *)
            then {| int_curr_symbol := int_curr_symbol d; int_frac_digits := n; mon_grouping := mon_grouping d |}
            else d)
  end.

(* y.go:45-50: every element through Atoi, None on the first failure *)
Fixpoint atoi_all (l : list bytes) : option (list Z) :=
  match l with
  | [] => Some []
  | v :: r =>
      match atoi v with
      | None => None
      | Some n => match atoi_all r with None => None | Some g => Some (n :: g) end
      end
  end.

(* y.go:41-52; None is the panic *)
Definition assignMonetaryGrouping (d : definition) (value : bytes) : option definition :=
  match atoi_all (split_on ";" value) with
  | None => None
  | Some g =>
      Some {| int_curr_symbol := int_curr_symbol d; int_frac_digits := int_frac_digits d; mon_grouping := g |}
  end.

(* y.go:629-662 yylex1, the translation of a token type into the internal numbering (yyTok3 is {0, }: y.go:508-510,
   so the third table never matches). *)
Definition translate (char : Z) : Z :=
  if char <=? 0 then nth 0 yyTok1 0
  else
    let t :=
      if char <? Z.of_nat (length yyTok1) then nth (Z.to_nat char) yyTok1 0
      else if (yyPrivate <=? char) && (char <? yyPrivate + Z.of_nat (length yyTok2))
           then nth (Z.to_nat (char - yyPrivate)) yyTok2 0
           else 0 in
    if t =? 0 then nth 1 yyTok2 0 else t.

(* How a parse can end. *)
Inductive outcome :=
| Returns (n : Z)          (* Parse returns n *)
| SyntaxError              (* Parse calls Lexer.Error, which panics: no ErrorHandler is ever installed *)
| BadNumber                (* an assign function panics *)
| OutOfRange               (* an index out of range panics *)
| Waits.                   (* Lex waits on the lexer's channel for ever *)

(* The local variables of Parse (y.go:668-690) between two visits of the label yystack, where yystate and yyVAL are
   about to be pushed: `below` is yyS[0..yyp], topmost first; `above` is what earlier pushes left in yyS[yyp+1..]
   (zero values beyond it: the doubling copy of y.go:702-706 and 820-824 keeps them). *)
Record config := {
  state : Z;
  yyval : bytes;
  below : list entry;
  above : list entry;
  look : option Z;         (* yytoken, None when yyrcvr.char < 0 *)
  lval : bytes;            (* yyrcvr.lval.val *)
  input : list token;      (* the tokens the lexer has still to send *)
  defs : definition
}.

Inductive result := Continue (c : config) | Stop (o : outcome) (d : definition).

(* localelex.go:112-123 Lexer.Lex: skip WHITESPACE.  None: the channel has no more tokens. *)
Fixpoint next_token (l : list token) : option (token * list token) :=
  match l with
  | [] => None
  | t :: r => if t_type t =? WHITESPACE then next_token r else Some (t, r)
  end.

(* y.go:715-717 and 738-740: make sure there is a lookahead token.  `closed` says whether the lexer closes its channel
   after the last token; if it does, Lex returns -1, and since that leaves yyrcvr.char negative the next use will ask
   again (and be told the same).  None: Lex blocks. *)
Definition read (closed : bool) (c : config) : option (Z * config) :=
  match look c with
  | Some t => Some (t, c)
  | None =>
      match next_token (input c) with
      | Some (tok, r) =>
          let t := translate (t_type tok) in
          Some (t, {| state := state c; yyval := yyval c; below := below c; above := above c;
                      look := if t_type tok <? 0 then None else Some t;
                      lval := t_value tok; input := r; defs := defs c |})
      | None =>
          if closed
          then Some (translate (-1),
                     {| state := state c; yyval := yyval c; below := below c; above := above c;
                        look := None; lval := lval c; input := []; defs := defs c |})
          else None
      end
  end.

(* y.go:743-749: find the exceptions of a state; None: runs off the table *)
Fixpoint exca_find (st : Z) (l : list Z) : option (list Z) :=
  match l with
  | a :: b :: r => if (a =? -1) && (b =? st) then Some r else exca_find st r
  | _ => None
  end.

(* y.go:750-755 *)
Fixpoint exca_pick (tok : Z) (l : list Z) : option Z :=
  match l with
  | a :: b :: r => if (a <? 0) || (a =? tok) then Some b else exca_pick tok r
  | _ => None
  end.

(* y.go:828-839: the state to enter after reducing to non-terminal A in state st *)
Definition goto_ (st A : Z) : option Z :=
  match at_ yyPgo A with
  | None => None
  | Some g =>
      if yyLast <=? g + st + 1 then at_ yyAct g
      else
        match at_ yyAct (g + st + 1) with
        | None => None
        | Some s =>
            match at_ yyChk s with
            | None => None
            | Some k => if k =? - A then Some s else at_ yyAct g
            end
        end
  end.

(* y.go:841-885: the semantic actions.  `popped` holds $n..$1; v is the default value yyS[yyp+1].  None: panic. *)
Definition action (n : Z) (popped : list entry) (v : bytes) (d : definition) : option (bytes * definition) :=
  let dollar i := nth i (rev popped) {| yys := 0; val := [] |} in
  if n =? 15 then Some (val (dollar 0%nat) ++ val (dollar 1%nat), d)
  else if n =? 120 then Some (v, assignMonetaryString d (dollar 0%nat) (val (dollar 1%nat)))
  else if n =? 121 then option_map (pair v) (assignMonetaryNumber d (yys (dollar 0%nat)) (val (dollar 1%nat)))
  else if n =? 122 then option_map (pair v) (assignMonetaryNumber d (yys (dollar 0%nat)) (B "-1"))
  else if n =? 123 then option_map (pair v) (assignMonetaryGrouping d (val (dollar 1%nat)))
  else if n =? 130 then Some (val (dollar 1%nat), d)
  else if n =? 148 then Some (val (dollar 0%nat) ++ B ";" ++ val (dollar 2%nat), d)
  else Some (v, d).

(* y.go:808-886: reduction by production n, the current state being already pushed on `below` *)
Definition reduce (n : Z) (c : config) : result :=
  match at_ yyR2 n, at_ yyR1 n with
  | Some k, Some A =>
      if k <? 0 then Stop OutOfRange (defs c)
      else
        let popped := firstn (Z.to_nat k) (below c) in
        let rest := skipn (Z.to_nat k) (below c) in
        let above' := rev popped ++ above c in
        let v := match above' with e :: _ => val e | [] => [] end in
        match rest with
        | [] => Stop OutOfRange (defs c)                    (* yyS[-1] *)
        | top :: _ =>
            match goto_ (yys top) A with
            | None => Stop OutOfRange (defs c)
            | Some s =>
                match action n popped v (defs c) with
                | None => Stop BadNumber (defs c)
                | Some (v', d) =>
                    Continue {| state := s; yyval := v'; below := rest; above := above';
                                look := look c; lval := lval c; input := input c; defs := d |}
                end
            end
        end
  | _, _ => Stop OutOfRange (defs c)
  end.

(* y.go:734-806, label yydefault *)
Definition default_action (closed : bool) (c : config) : result :=
  match at_ yyDef (state c) with
  | None => Stop OutOfRange (defs c)
  | Some n =>
      if n =? -2 then
        match read closed c with
        | None => Stop Waits (defs c)
        | Some (tok, c) =>
            match exca_find (state c) yyExca with
            | None => Stop OutOfRange (defs c)
            | Some l =>
                match exca_pick tok l with
                | None => Stop OutOfRange (defs c)
                | Some n =>
                    if n <? 0 then Stop (Returns 0) (defs c)
                    else if n =? 0 then Stop SyntaxError (defs c)
                    else reduce n c
                end
            end
        end
      else if n =? 0 then Stop SyntaxError (defs c)
      else reduce n c
  end.

(* y.go:695-732, labels yystack and yynewstate *)
Definition step (closed : bool) (c : config) : result :=
  let c := {| state := state c; yyval := yyval c;
              below := {| yys := state c; val := yyval c |} :: below c; above := tl (above c);
              look := look c; lval := lval c; input := input c; defs := defs c |} in
  match at_ yyPact (state c) with
  | None => Stop OutOfRange (defs c)
  | Some p =>
      if p <=? yyFlag then default_action closed c
      else
        match read closed c with
        | None => Stop Waits (defs c)
        | Some (tok, c) =>
            if (p + tok <? 0) || (yyLast <=? p + tok) then default_action closed c
            else
              match at_ yyAct (p + tok) with
              | None => Stop OutOfRange (defs c)
              | Some s =>
                  match at_ yyChk s with
                  | None => Stop OutOfRange (defs c)
                  | Some k =>
                      if k =? tok
                      then Continue {| state := s; yyval := lval c; below := below c; above := above c;
                                       look := None; lval := lval c; input := input c; defs := defs c |}
                      else default_action closed c
                  end
              end
        end
  end.

(* y.go:668-887 Parse, as far as `fuel` visits of yystack; None: not finished yet *)
Fixpoint run (fuel : nat) (closed : bool) (c : config) : option (outcome * definition) :=
  match fuel with
  | O => None
  | S f =>
      match step closed c with
      | Stop o d => Some (o, d)
      | Continue c' => run f closed c'
      end
  end.

(* y.go:668-690: the start of Parse, with the tokens the lexer is going to send *)
Definition start (d : definition) (l : list token) : config :=
  {| state := 0; yyval := []; below := []; above := []; look := None; lval := []; input := l; defs := d |}.

(* y.go:664-666 yyParse, with the value of the package variable def before the call *)
Definition yyParse (fuel : nat) (closed : bool) (d : definition) (l : list token) : option (outcome * definition) :=
  run fuel closed (start d l).
