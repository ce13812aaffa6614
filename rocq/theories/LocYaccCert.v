(* Certificates about the generated parser's automaton, computed outside Coq.  Nothing here is trusted: each is
   validated by a boolean check in LocYaccProofs (by computation in the kernel), and only the checks' results are used. *)
From Verif Require Import GoBase.
Local Open Scope Z_scope.

(* preds_tab: for each state, the states that can be directly below it on the stack *)
Definition preds_tab : list (list Z) := [
  [];[0];[0];[0];[0];[0;2];[0;2];[0;2];[0;2;3;26];[0;2;3;26];[0;2;3;26];[0;2;3;26];[0;2;3;26];[0;2;3;26];[0;2;3;26];
  [0;2;3;26];[0;2;3;26];[0;2;3;26];[0;2;3;26];[0;2;3;26];[0;2;3;26];[0;2;3;26];[0;2;3;26];[0;2;3;26];[0;2;3;26];
  [0;2;3;26];[2];[2];[3;26];[6];[7];[14];[14];[14];[14;31];[14;31];[14;31];[14;31];[14;31];[14;31];[14;31];[14;31];
  [14;31];[14;31];[14;31];[14;31];[14;31];[14;31];[14;31];[14;31];[14;31];[14;31];[15];[15];[15];[15];[15;55];[15];
  [15];[15;55];[15;55];[15;55];[15;55];[16];[16];[16];[16;63];[16;63];[17];[17];[17];[17;68];[17;68];[17;68];[17;68];
  [17;68];[17;68];[17;68];[17;68];[17;68];[17;68];[17;68];[17;68];[17;68];[17;68];[17;68];[17;68];[17;68];[17;68];
  [17;68];[17;68];[17;68];[17;68];[17;68];[17;68];[18];[18];[18];[18;95];[18;95];[18;95];[18;95];[18;95];[19];[19];
  [19];[19;103];[19;103];[19;103];[19;103];[19;103];[19;103];[19;103];[19;103];[19;103];[19;103];[19;103];[19;103];
  [19;103];[19;103];[19;103];[19;103];[19;103];[20];[21];[22];[23];[24];[25];[29];[30];[31];[31];[31;209];[32];
  [32;53;64;69;96;104];[32;53;64;69;96;104];[34];[34];
  [34;56;146;155;158;172;184;195;205;212;229;236;247;256;263;272;278;279;305];
  [34;56;146;155;158;172;184;195;205;212;229;236;247;256;263;272;278;279;305];
  [34;56;146;155;158;172;184;195;205;212;229;236;247;256;263;272;278;279;305];
  [34;56;146;155;158;172;184;195;205;212;229;236;247;256;263;272;278;279;305];
  [34;56;146;155;158;172;184;195;205;212;229;236;247;256;263;272;278;279;305];[35];[35];[35;214];[36];[36];[52];
  [52;219];[53];[55];[55];[55];[56];[56];[56;155];[56;155];[56;155];[56;155];[56;155];[56;155];[59];[59];[59];
  [59;233];[59;233;234];[59;233;234];[59;233;234];[60];[61];[62];[63];[63];[63;241];[64];[66];[67];[68];[68];
  [68;245];[69];[71];[71];[71];[72];[72];[73];[73];[95];[95];[95;254];[96];[98];[98];[98];[99];[99];[103];[103];
  [103;260];[104];[106];[106;108];[106;107;108;262];[107];[108];[133];[134];[136];[137];[137];[144];[144];[146];
  [147];[147];[150];[151];[155];[155];[155];[157];[158];[158];[158];[158;278];[158;278];[158;278];[158;278];
  [158;278];[164];[164];[165;282];[170];[172];[172;229];[172];[172;229];[175];[176];[177];[178];[181];[182];[183];
  [184];[184;195;205];[186];[187];[188];[188];[192];[193];[194];[195];[197];[197];[201];[202];[203];[203;207];[205];
  [206];[207];[208];[209];[210];[212];[212];[214];[215];[217];[218];[219];[222];[224];[224];[229];[];[229];[233];
  [234];[236;279];[236;279];[236;279];[236];[240];[241];[242];[243];[244];[245];[247;256;263];[247];[252];[253];
  [254];[256];[258];[259];[260];[262];[263];[270];[272];[278];[279];[];[];[287];[290];[291];[305];[306]
].

(* rank_tab: a potential that every reduction decreases (together with 8 times the height of the stack) *)
Definition rank_c : Z := 8.
Definition rank_tab : list Z := [
  12; 9; 11; 10; 12; 11; 12; 12; 12; 12; 12; 12; 12; 12; 12; 12; 12; 12; 12; 12; 12; 12; 12; 12; 12; 12; 10; 12; 11;
  12; 12; 11; 12; 12; 11; 11; 12; 12; 12; 12; 12; 12; 12; 12; 12; 12; 12; 12; 12; 12; 12; 12; 11; 12; 12; 11; 12; 12;
  12; 12; 12; 12; 12; 11; 12; 12; 12; 12; 11; 12; 12; 11; 11; 11; 12; 12; 12; 12; 12; 12; 12; 12; 12; 12; 12; 12; 12;
  12; 12; 12; 12; 12; 12; 12; 12; 11; 12; 12; 11; 11; 12; 12; 12; 11; 12; 12; 11; 11; 11; 12; 12; 12; 12; 12; 12; 12;
  12; 12; 12; 12; 12; 12; 12; 12; 12; 12; 12; 12; 12; 12; 12; 12; 12; 12; 11; 12; 12; 10; 11; 12; 12; 12; 12; 12; 11;
  12; 12; 11; 12; 12; 12; 11; 12; 12; 12; 11; 12; 12; 10; 11; 12; 12; 12; 12; 9; 10; 11; 12; 12; 12; 12; 12; 12; 12;
  12; 12; 11; 12; 12; 12; 12; 12; 11; 11; 12; 12; 12; 12; 11; 12; 12; 12; 12; 11; 11; 12; 12; 11; 12; 12; 12; 12; 11;
  11; 12; 12; 12; 11; 12; 12; 12; 12; 12; 12; 12; 11; 12; 12; 12; 12; 12; 12; 12; 12; 0; 12; 1; 11; 12; 12; 12; 12;
  12; 12; 12; 12; 10; 11; 12; 12; 12; 12; 12; 12; 12; 12; 12; 10; 11; 12; 12; 12; 12; 12; 12; 12; 10; 12; 12; 12; 12;
  12; 12; 10; 12; 12; 12; 12; 12; 11; 12; 12; 12; 12; 12; 12; 12; 12; 12; 10; 12; 12; 10; 11; 11; 12; 12; 12; 12; 12;
  12; 12; 12; 12; 11; 12; 12; 12; 12; 12; 12; 12; 12; 12; 12; 12; 11; 10; 12; 12; 12; 12; 12; 12; 11; 12
].

(* An unambiguous grammar for the same language.  Symbols: a terminal is its internal code, a non-terminal of the grammar
   minus its number; -101 is a non-empty weight list, -102 a possibly empty one, -103 an absent weight, -104 a weight
   that is present.  Each production carries the number of the original production the parser reduces by. *)
Definition prods' : list (Z * list Z * Z) := [
  (-1, [-2;-3], 1);
  (-1, [-3], 2);
  (-2, [-2;-4], 3);
  (-2, [-4], 4);
  (-4, [17;5;16], 5);
  (-4, [18;5;16], 6);
  (-3, [-3;-5], 7);
  (-3, [-5], 8);
  (-5, [-6], 9);
  (-5, [-7], 10);
  (-5, [-8], 11);
  (-5, [-9], 12);
  (-5, [-10], 13);
  (-5, [-11], 14);
  (-12, [-12;-13], 15);
  (-12, [-13], 16);
  (-13, [5], 17);
  (-13, [9], 18);
  (-13, [10], 19);
  (-13, [11], 20);
  (-13, [12], 21);
  (-14, [-14;-13], 22);
  (-14, [-14;7], 23);
  (-14, [-14;8], 24);
  (-14, [-13], 25);
  (-14, [7], 26);
  (-14, [8], 27);
  (-16, [4], 30);
  (-16, [94;4;94], 31);
  (-6, [-17;-18;-19], 32);
  (-6, [-17;19;-16;16;-19], 33);
  (-17, [20;16], 34);
  (-18, [-18;-20], 35);
  (-18, [-20], 36);
  (-20, [-21;-22;16], 37);
  (-20, [-23;-24;16], 38);
  (-20, [21;-25;16], 39);
  (-25, [-25;95;13], 40);
  (-25, [13], 41);
  (-21, [22], 42);
  (-21, [23], 43);
  (-21, [24], 44);
  (-21, [25], 45);
  (-21, [26], 46);
  (-21, [27], 47);
  (-21, [28], 48);
  (-21, [29], 49);
  (-21, [30], 50);
  (-21, [31], 51);
  (-21, [32], 52);
  (-21, [33], 53);
  (-21, [13], 54);
  (-22, [-22;95;-13], 55);
  (-22, [-22;95;14;95;-13], 56);
  (-22, [-13], 57);
  (-23, [34], 58);
  (-23, [35], 59);
  (-24, [-24;95;-26], 60);
  (-24, [-26], 61);
  (-26, [96;-13;97;-13;98], 62);
  (-19, [45;20;16], 63);
  (-7, [-27;-28;-29], 64);
  (-7, [-27;19;-16;16;-29], 65);
  (-27, [36;16], 66);
  (-28, [-30], 67);
  (-28, [-31;-30], 68);
  (-31, [-31;-32], 69);
  (-31, [-31;-33], 70);
  (-31, [-32], 71);
  (-31, [-33], 72);
  (-32, [37;7;16], 73);
  (-33, [38;8], 74);
  (-33, [88;94;-14;94;16], 75);
  (-30, [-34;-35;-36], 76);
  (-34, [39;16], 77);
  (-34, [39;-37;16], 78);
  (-37, [-37;95;-38], 79);
  (-37, [-38], 80);
  (-38, [-38;97;-39], 81);
  (-38, [-39], 82);
  (-39, [40], 83);
  (-39, [41], 84);
  (-39, [42], 85);
  (-35, [-35;-40], 86);
  (-35, [-40], 87);
  (-40, [7;16], 88);
  (-40, [-41;-101;16], 89);
  (-40, [-41;16], 90);
  (-41, [-13], 91);
  (-41, [8], 92);
  (-41, [14], 93);
  (-41, [43], 94);
  (-36, [89;16], 105);
  (-29, [45;36;16], 106);
  (-8, [-44;-45;-46], 107);
  (-8, [-44;19;-16;16;-46], 108);
  (-44, [85;16], 109);
  (-45, [-45;-47], 110);
  (-45, [-47], 111);
  (-47, [87;94;15;94;16], 112);
  (-47, [86;94;15;94;16], 113);
  (-46, [45;85;16], 114);
  (-9, [-48;-49;-50], 115);
  (-9, [-48;19;-16;16;-50], 116);
  (-48, [64;16], 117);
  (-49, [-49;-51], 118);
  (-49, [-51], 119);
  (-51, [-52;-53;16], 120);
  (-51, [-54;6;16], 121);
  (-51, [-54;92;16], 122);
  (-51, [-55;-56;16], 123);
  (-52, [82], 124);
  (-52, [83], 125);
  (-52, [81], 126);
  (-52, [84], 127);
  (-52, [80], 128);
  (-52, [79], 129);
  (-53, [94;-12;94], 130);
  (-53, [93], 131);
  (-54, [71], 132);
  (-54, [72], 133);
  (-54, [70], 134);
  (-54, [73], 135);
  (-54, [69], 136);
  (-54, [74], 137);
  (-54, [68], 138);
  (-54, [75], 139);
  (-54, [67], 140);
  (-54, [76], 141);
  (-54, [66], 142);
  (-54, [77], 143);
  (-54, [65], 144);
  (-54, [78], 145);
  (-55, [90], 146);
  (-56, [6], 147);
  (-56, [-56;95;6], 148);
  (-50, [45;64;16], 149);
  (-10, [-57;-58;-59], 150);
  (-10, [-57;19;-16;16;-59], 151);
  (-57, [61;16], 152);
  (-58, [-58;-60], 153);
  (-58, [-60], 154);
  (-60, [-61;-62;16], 155);
  (-60, [-63;-64;16], 156);
  (-61, [62], 157);
  (-61, [63], 158);
  (-62, [94;-12;94], 159);
  (-62, [93], 160);
  (-63, [91], 161);
  (-64, [6], 162);
  (-64, [-64;95;6], 163);
  (-59, [45;61;16], 164);
  (-11, [-65;-66;-67], 165);
  (-11, [-65;19;-16;16;-67], 166);
  (-65, [46;16], 167);
  (-66, [-66;-68], 168);
  (-66, [-68], 169);
  (-68, [-69;-70;16], 170);
  (-68, [-71;-72;16], 171);
  (-68, [-73;-70;16], 172);
  (-69, [52], 173);
  (-69, [57], 174);
  (-69, [58], 175);
  (-69, [59], 176);
  (-69, [60], 177);
  (-71, [53], 178);
  (-71, [54], 179);
  (-71, [55], 180);
  (-71, [56], 181);
  (-73, [47], 182);
  (-73, [48], 183);
  (-73, [49], 184);
  (-73, [51], 185);
  (-73, [50], 186);
  (-70, [-70;95;-72], 187);
  (-70, [-72], 188);
  (-72, [94;-12;94], 189);
  (-67, [45;46;16], 190);
  (-101, [-102;95;-104], 95);
  (-101, [-102;95], 96);
  (-101, [-104], 97);
  (-102, [-102;95;-104], 95);
  (-102, [-102;95], 96);
  (-102, [-104], 97);
  (-102, [-103], 97);
  (-103, [], 98);
  (-104, [-13], 99);
  (-104, [7], 100);
  (-104, [94;-14;94], 101);
  (-104, [14], 103);
  (-104, [44], 104)
].

(* the non-terminals of that grammar: the original number, whether it derives the empty word, and the terminals its words can start with *)
Definition nts' : list (Z * (Z * bool * list Z)) := [
  (-1, (1, false, [17;18;20;36;46;61;64;85]));
  (-2, (2, false, [17;18]));
  (-3, (3, false, [20;36;46;61;64;85]));
  (-4, (4, false, [17;18]));
  (-5, (5, false, [20;36;46;61;64;85]));
  (-6, (6, false, [20]));
  (-7, (7, false, [36]));
  (-8, (8, false, [85]));
  (-9, (9, false, [64]));
  (-10, (10, false, [61]));
  (-11, (11, false, [46]));
  (-12, (12, false, [5;9;10;11;12]));
  (-13, (13, false, [5;9;10;11;12]));
  (-14, (14, false, [5;7;8;9;10;11;12]));
  (-16, (16, false, [4;94]));
  (-17, (17, false, [20]));
  (-18, (18, false, [13;21;22;23;24;25;26;27;28;29;30;31;32;33;34;35]));
  (-19, (19, false, [45]));
  (-20, (20, false, [13;21;22;23;24;25;26;27;28;29;30;31;32;33;34;35]));
  (-21, (21, false, [13;22;23;24;25;26;27;28;29;30;31;32;33]));
  (-22, (22, false, [5;9;10;11;12]));
  (-23, (23, false, [34;35]));
  (-24, (24, false, [96]));
  (-25, (25, false, [13]));
  (-26, (26, false, [96]));
  (-27, (27, false, [36]));
  (-28, (28, false, [37;38;39;88]));
  (-29, (29, false, [45]));
  (-30, (30, false, [39]));
  (-31, (31, false, [37;38;88]));
  (-32, (32, false, [37]));
  (-33, (33, false, [38;88]));
  (-34, (34, false, [39]));
  (-35, (35, false, [5;7;8;9;10;11;12;14;43]));
  (-36, (36, false, [89]));
  (-37, (37, false, [40;41;42]));
  (-38, (38, false, [40;41;42]));
  (-39, (39, false, [40;41;42]));
  (-40, (40, false, [5;7;8;9;10;11;12;14;43]));
  (-41, (41, false, [5;8;9;10;11;12;14;43]));
  (-44, (44, false, [85]));
  (-45, (45, false, [86;87]));
  (-46, (46, false, [45]));
  (-47, (47, false, [86;87]));
  (-48, (48, false, [64]));
  (-49, (49, false, [65;66;67;68;69;70;71;72;73;74;75;76;77;78;79;80;81;82;83;84;90]));
  (-50, (50, false, [45]));
  (-51, (51, false, [65;66;67;68;69;70;71;72;73;74;75;76;77;78;79;80;81;82;83;84;90]));
  (-52, (52, false, [79;80;81;82;83;84]));
  (-53, (53, false, [93;94]));
  (-54, (54, false, [65;66;67;68;69;70;71;72;73;74;75;76;77;78]));
  (-55, (55, false, [90]));
  (-56, (56, false, [6]));
  (-57, (57, false, [61]));
  (-58, (58, false, [62;63;91]));
  (-59, (59, false, [45]));
  (-60, (60, false, [62;63;91]));
  (-61, (61, false, [62;63]));
  (-62, (62, false, [93;94]));
  (-63, (63, false, [91]));
  (-64, (64, false, [6]));
  (-65, (65, false, [46]));
  (-66, (66, false, [47;48;49;50;51;52;53;54;55;56;57;58;59;60]));
  (-67, (67, false, [45]));
  (-68, (68, false, [47;48;49;50;51;52;53;54;55;56;57;58;59;60]));
  (-69, (69, false, [52;57;58;59;60]));
  (-70, (70, false, [94]));
  (-71, (71, false, [53;54;55;56]));
  (-72, (72, false, [94]));
  (-73, (73, false, [47;48;49;50;51]));
  (-101, (42, false, [5;7;9;10;11;12;14;44;94;95]));
  (-102, (42, true, [5;7;9;10;11;12;14;44;94;95]));
  (-103, (43, true, []));
  (-104, (43, false, [5;7;9;10;11;12;14;44;94]))
].

(* lookahead sets *)
Definition la_tab : list (list Z) := [
  [1];[17;18;20;36;46;61;64;85];[1;20;36;46;61;64;85];[13;19;21;22;23;24;25;26;27;28;29;30;31;32;33;34;35];
  [19;37;38;39;88];[19;86;87];[19;65;66;67;68;69;70;71;72;73;74;75;76;77;78;79;80;81;82;83;84;90];[19;62;63;91];
  [19;47;48;49;50;51;52;53;54;55;56;57;58;59;60];[13;21;22;23;24;25;26;27;28;29;30;31;32;33;34;35;45];[5;9;10;11;12];
  [96];[45];[37;38;39;88];[5;7;8;9;10;11;12;14;43];[45;86;87];
  [45;65;66;67;68;69;70;71;72;73;74;75;76;77;78;79;80;81;82;83;84;90];[93;94];[6;92];[6];[45;62;63;91];
  [45;47;48;49;50;51;52;53;54;55;56;57;58;59;60];[94];[16];[16;95];[5;7;9;10;11;12;14;16;44;94;95];
  [5;7;8;9;10;11;12;14;43;89];[16;95;97];[5;7;8;9;10;11;12;14;16;44;94;95;97;98];[97];[95];[5;7;8;9;10;11;12;94];
  [5;9;10;11;12;94];[98]
].

(* items_tab: for each state its items (production of prods', position of the dot, lookahead set) *)
Definition items_tab : list (list (nat * nat * nat)) := [

  [(0,0,0);(1,0,0);(2,0,1);(3,0,1);(4,0,1);(5,0,1);(6,0,2);(7,0,2);(8,0,2);(9,0,2);(10,0,2);(11,0,2);(12,0,2);(13,0,2);(29,0,2);(30,0,2);(31,0,3);(61,0,2);(62,0,2);(63,0,4);(94,0,2);(95,0,2);(96,0,5);(102,0,2);(103,0,2);(104,0,6);(137,0,2);(138,0,2);(139,0,7);(152,0,2);(153,0,2);(154,0,8)];
  [];
  [(0,1,0);(2,1,1);(4,0,1);(5,0,1);(6,0,2);(7,0,2);(8,0,2);(9,0,2);(10,0,2);(11,0,2);(12,0,2);(13,0,2);(29,0,2);(30,0,2);(31,0,3);(61,0,2);(62,0,2);(63,0,4);(94,0,2);(95,0,2);(96,0,5);(102,0,2);(103,0,2);(104,0,6);(137,0,2);(138,0,2);(139,0,7);(152,0,2);(153,0,2);(154,0,8)];
  [(1,1,0);(6,1,2);(8,0,2);(9,0,2);(10,0,2);(11,0,2);(12,0,2);(13,0,2);(29,0,2);(30,0,2);(31,0,3);(61,0,2);(62,0,2);(63,0,4);(94,0,2);(95,0,2);(96,0,5);(102,0,2);(103,0,2);(104,0,6);(137,0,2);(138,0,2);(139,0,7);(152,0,2);(153,0,2);(154,0,8)];
  [(3,1,1)];[(7,1,2)];[(4,1,1)];[(5,1,1)];[(8,1,2)];[(9,1,2)];[(10,1,2)];[(11,1,2)];[(12,1,2)];[(13,1,2)];
  [(29,1,2);(30,1,2);(32,0,9);(33,0,9);(34,0,9);(35,0,9);(36,0,9);(39,0,10);(40,0,10);(41,0,10);(42,0,10);(43,0,10);(44,0,10);(45,0,10);(46,0,10);(47,0,10);(48,0,10);(49,0,10);(50,0,10);(51,0,10);(55,0,11);(56,0,11)];
  [(61,1,2);(62,1,2);(64,0,12);(65,0,12);(66,0,13);(67,0,13);(68,0,13);(69,0,13);(70,0,13);(71,0,13);(72,0,13);(73,0,12);(74,0,14);(75,0,14)];
  [(94,1,2);(95,1,2);(97,0,15);(98,0,15);(99,0,15);(100,0,15)];
  [(102,1,2);(103,1,2);(105,0,16);(106,0,16);(107,0,16);(108,0,16);(109,0,16);(110,0,16);(111,0,17);(112,0,17);(113,0,17);(114,0,17);(115,0,17);(116,0,17);(119,0,18);(120,0,18);(121,0,18);(122,0,18);(123,0,18);(124,0,18);(125,0,18);(126,0,18);(127,0,18);(128,0,18);(129,0,18);(130,0,18);(131,0,18);(132,0,18);(133,0,19)];
  [(137,1,2);(138,1,2);(140,0,20);(141,0,20);(142,0,20);(143,0,20);(144,0,17);(145,0,17);(148,0,19)];
  [(152,1,2);(153,1,2);(155,0,21);(156,0,21);(157,0,21);(158,0,21);(159,0,21);(160,0,22);(161,0,22);(162,0,22);(163,0,22);(164,0,22);(165,0,22);(166,0,22);(167,0,22);(168,0,22);(169,0,22);(170,0,22);(171,0,22);(172,0,22);(173,0,22)];
  [(31,1,3)];[(63,1,4)];[(96,1,5)];[(104,1,6)];[(139,1,7)];[(154,1,8)];
  [(0,2,0);(6,1,2);(8,0,2);(9,0,2);(10,0,2);(11,0,2);(12,0,2);(13,0,2);(29,0,2);(30,0,2);(31,0,3);(61,0,2);(62,0,2);(63,0,4);(94,0,2);(95,0,2);(96,0,5);(102,0,2);(103,0,2);(104,0,6);(137,0,2);(138,0,2);(139,0,7);(152,0,2);(153,0,2);(154,0,8)];
  [(2,2,1)];[(6,2,2)];[(4,2,1)];[(5,2,1)];
  [(29,2,2);(32,1,9);(34,0,9);(35,0,9);(36,0,9);(39,0,10);(40,0,10);(41,0,10);(42,0,10);(43,0,10);(44,0,10);(45,0,10);(46,0,10);(47,0,10);(48,0,10);(49,0,10);(50,0,10);(51,0,10);(55,0,11);(56,0,11);(60,0,2)];
  [(27,0,23);(28,0,23);(30,2,2)];[(33,1,9)];
  [(16,0,24);(17,0,24);(18,0,24);(19,0,24);(20,0,24);(34,1,9);(52,0,24);(53,0,24);(54,0,24)];
  [(35,1,9);(57,0,24);(58,0,24);(59,0,24)];[(36,1,9);(37,0,24);(38,0,24)];[(39,1,10)];[(40,1,10)];[(41,1,10)];
  [(42,1,10)];[(43,1,10)];[(44,1,10)];[(45,1,10)];[(46,1,10)];[(47,1,10)];[(48,1,10)];[(49,1,10)];[(50,1,10)];
  [(51,1,10)];[(55,1,11)];[(56,1,11)];[(61,2,2);(93,0,2)];[(27,0,23);(28,0,23);(62,2,2)];[(64,1,12)];
  [(65,1,12);(66,1,13);(67,1,13);(70,0,13);(71,0,13);(72,0,13);(73,0,12);(74,0,14);(75,0,14)];
  [(16,0,25);(17,0,25);(18,0,25);(19,0,25);(20,0,25);(73,1,12);(83,0,26);(84,0,26);(85,0,26);(86,0,26);(87,0,26);(88,0,25);(89,0,25);(90,0,25);(91,0,25)];
  [(68,1,13)];[(69,1,13)];
  [(74,1,14);(75,1,14);(76,0,24);(77,0,24);(78,0,27);(79,0,27);(80,0,27);(81,0,27);(82,0,27)];[(70,1,13)];
  [(71,1,13)];[(72,1,13)];[(94,2,2);(97,1,15);(99,0,15);(100,0,15);(101,0,2)];[(27,0,23);(28,0,23);(95,2,2)];
  [(98,1,15)];[(99,1,15)];[(100,1,15)];
  [(102,2,2);(105,1,16);(107,0,16);(108,0,16);(109,0,16);(110,0,16);(111,0,17);(112,0,17);(113,0,17);(114,0,17);(115,0,17);(116,0,17);(119,0,18);(120,0,18);(121,0,18);(122,0,18);(123,0,18);(124,0,18);(125,0,18);(126,0,18);(127,0,18);(128,0,18);(129,0,18);(130,0,18);(131,0,18);(132,0,18);(133,0,19);(136,0,2)];
  [(27,0,23);(28,0,23);(103,2,2)];[(106,1,16)];[(107,1,16);(117,0,23);(118,0,23)];[(108,1,16);(109,1,16)];
  [(110,1,16);(134,0,24);(135,0,24)];[(111,1,17)];[(112,1,17)];[(113,1,17)];[(114,1,17)];[(115,1,17)];[(116,1,17)];
  [(119,1,18)];[(120,1,18)];[(121,1,18)];[(122,1,18)];[(123,1,18)];[(124,1,18)];[(125,1,18)];[(126,1,18)];
  [(127,1,18)];[(128,1,18)];[(129,1,18)];[(130,1,18)];[(131,1,18)];[(132,1,18)];[(133,1,19)];
  [(137,2,2);(140,1,20);(142,0,20);(143,0,20);(144,0,17);(145,0,17);(148,0,19);(151,0,2)];
  [(27,0,23);(28,0,23);(138,2,2)];[(141,1,20)];[(142,1,20);(146,0,23);(147,0,23)];[(143,1,20);(149,0,24);(150,0,24)];
  [(144,1,17)];[(145,1,17)];[(148,1,19)];
  [(152,2,2);(155,1,21);(157,0,21);(158,0,21);(159,0,21);(160,0,22);(161,0,22);(162,0,22);(163,0,22);(164,0,22);(165,0,22);(166,0,22);(167,0,22);(168,0,22);(169,0,22);(170,0,22);(171,0,22);(172,0,22);(173,0,22);(177,0,2)];
  [(27,0,23);(28,0,23);(153,2,2)];[(156,1,21)];[(157,1,21);(174,0,24);(175,0,24);(176,0,24)];[(158,1,21);(176,0,23)];
  [(159,1,21);(174,0,24);(175,0,24);(176,0,24)];[(160,1,22)];[(161,1,22)];[(162,1,22)];[(163,1,22)];[(164,1,22)];
  [(165,1,22)];[(166,1,22)];[(167,1,22)];[(168,1,22)];[(169,1,22)];[(170,1,22)];[(171,1,22)];[(172,1,22)];
  [(173,1,22)];[(31,2,3)];[(63,2,4)];[(96,2,5)];[(104,2,6)];[(139,2,7)];[(154,2,8)];[(4,3,1)];[(5,3,1)];[(29,3,2)];
  [(32,2,9)];[(60,1,2)];[(30,3,2)];[(27,1,23)];[(28,1,23)];[(34,2,9);(52,1,24);(53,1,24)];[(54,1,24)];[(16,1,28)];
  [(17,1,28)];[(18,1,28)];[(19,1,28)];[(20,1,28)];[(35,2,9);(57,1,24)];[(58,1,24)];
  [(16,0,29);(17,0,29);(18,0,29);(19,0,29);(20,0,29);(59,1,24)];[(36,2,9);(37,1,24)];[(38,1,24)];[(61,3,2)];
  [(93,1,2)];[(62,3,2)];[(65,2,12)];[(66,2,13)];[(67,2,13)];
  [(16,0,25);(17,0,25);(18,0,25);(19,0,25);(20,0,25);(73,2,12);(83,1,26);(85,0,26);(86,0,26);(87,0,26);(88,0,25);(89,0,25);(90,0,25);(91,0,25);(92,0,12)];
  [(84,1,26)];[(85,1,26)];
  [(16,0,24);(17,0,24);(18,0,24);(19,0,24);(20,0,24);(86,1,26);(87,1,26);(178,0,23);(179,0,23);(180,0,23);(181,0,30);(182,0,30);(183,0,30);(184,0,30);(185,0,30);(186,0,24);(187,0,24);(188,0,24);(189,0,24);(190,0,24)];
  [(88,1,25)];[(89,1,25)];[(90,1,25)];[(91,1,25)];[(74,2,14)];[(75,2,14);(76,1,24)];[(77,1,24);(78,1,27)];
  [(79,1,27)];[(80,1,27)];[(81,1,27)];[(82,1,27)];[(70,2,13)];[(71,2,13)];
  [(16,0,31);(17,0,31);(18,0,31);(19,0,31);(20,0,31);(21,0,31);(22,0,31);(23,0,31);(24,0,31);(25,0,31);(26,0,31);(72,2,13)];
  [(94,3,2)];[(97,2,15)];[(101,1,2)];[(95,3,2)];[(99,2,15)];[(100,2,15)];[(102,3,2)];[(105,2,16)];[(136,1,2)];
  [(103,3,2)];[(107,2,16)];[(14,0,32);(15,0,32);(16,0,32);(17,0,32);(18,0,32);(19,0,32);(20,0,32);(117,1,23)];
  [(118,1,23)];[(108,2,16)];[(109,2,16)];[(110,2,16);(135,1,24)];[(134,1,24)];[(137,3,2)];[(140,2,20)];[(151,1,2)];
  [(138,3,2)];[(142,2,20)];[(14,0,32);(15,0,32);(16,0,32);(17,0,32);(18,0,32);(19,0,32);(20,0,32);(146,1,23)];
  [(147,1,23)];[(143,2,20);(150,1,24)];[(149,1,24)];[(152,3,2)];[(155,2,21)];[(177,1,2)];[(153,3,2)];
  [(157,2,21);(174,1,24)];[(175,1,24)];
  [(14,0,32);(15,0,32);(16,0,32);(17,0,32);(18,0,32);(19,0,32);(20,0,32);(176,1,24)];[(158,2,21)];
  [(159,2,21);(174,1,24)];[(60,2,2)];[(30,4,2);(60,0,2)];[(28,2,23)];[(34,3,9)];
  [(16,0,24);(17,0,24);(18,0,24);(19,0,24);(20,0,24);(52,2,24);(53,2,24)];[(35,3,9)];[(57,2,24);(59,0,24)];
  [(59,2,24)];[(36,3,9)];[(37,2,24)];[(93,2,2)];[(62,4,2);(93,0,2)];[(73,3,12)];[(83,2,26)];[(92,1,12)];[(85,2,26)];
  [(86,2,26);(178,1,23);(179,1,23);(181,1,30);(182,1,30)];[(87,2,26)];[(180,1,23);(183,1,30);(184,1,30)];
  [(186,1,24)];[(187,1,24)];
  [(16,0,31);(17,0,31);(18,0,31);(19,0,31);(20,0,31);(21,0,31);(22,0,31);(23,0,31);(24,0,31);(25,0,31);(26,0,31);(188,1,24)];
  [(189,1,24)];[(190,1,24)];[(75,3,14)];[(76,2,24);(78,0,27);(79,0,27);(80,0,27);(81,0,27);(82,0,27)];
  [(78,2,27);(80,0,27);(81,0,27);(82,0,27)];[(70,3,13)];
  [(16,0,31);(17,0,31);(18,0,31);(19,0,31);(20,0,31);(21,1,31);(22,1,31);(23,1,31);(72,3,13)];[(24,1,31)];
  [(25,1,31)];[(26,1,31)];[(101,2,2)];[(95,4,2);(101,0,2)];[(99,3,15)];[(100,3,15)];[(136,2,2)];
  [(103,4,2);(136,0,2)];[(107,3,16)];[(14,1,32);(16,0,32);(17,0,32);(18,0,32);(19,0,32);(20,0,32);(117,2,23)];
  [(15,1,32)];[(108,3,16)];[(109,3,16)];[(110,3,16)];[(135,2,24)];[(151,2,2)];[(138,4,2);(151,0,2)];[(142,3,20)];
  [(14,1,32);(16,0,32);(17,0,32);(18,0,32);(19,0,32);(20,0,32);(146,2,23)];[(143,3,20)];[(150,2,24)];[(177,2,2)];
  [(153,4,2);(177,0,2)];[(157,3,21)];[(174,2,24);(176,0,24)];
  [(14,1,32);(16,0,32);(17,0,32);(18,0,32);(19,0,32);(20,0,32);(176,2,24)];[(158,3,21)];[(159,3,21)];[(60,3,2)];
  [(30,5,2)];[(28,3,23)];[(52,3,24)];[(53,3,24)];[(57,3,24)];
  [(16,0,33);(17,0,33);(18,0,33);(19,0,33);(20,0,33);(59,3,24)];[(37,3,24)];[(93,3,2)];[(62,5,2)];[(92,2,12)];
  [(86,3,26)];
  [(16,0,24);(17,0,24);(18,0,24);(19,0,24);(20,0,24);(178,2,23);(179,2,23);(181,2,30);(182,2,30);(186,0,24);(187,0,24);(188,0,24);(189,0,24);(190,0,24)];
  [(16,0,31);(17,0,31);(18,0,31);(19,0,31);(20,0,31);(21,1,31);(22,1,31);(23,1,31);(188,2,24)];[];[(25,1,31)];
  [(76,3,24);(78,1,27)];[(78,3,27)];[(21,2,31)];[(22,2,31)];[(23,2,31)];[(72,4,13)];[(101,3,2)];[(95,5,2)];
  [(99,4,15)];[(100,4,15)];[(136,3,2)];[(103,5,2)];[(14,2,32)];[(117,3,23)];[(135,3,24)];[(151,3,2)];[(138,5,2)];
  [(146,3,23)];[(150,3,24)];[(177,3,2)];[(153,5,2)];[(174,3,24)];[(176,3,24)];
  [(16,0,24);(17,0,24);(18,0,24);(19,0,24);(20,0,24);(53,4,24)];[(59,4,24)];[(178,3,23);(181,3,30)];[(188,3,24)];[];
  [];[(72,5,13)];[(99,5,15)];[(100,5,15)];[(53,5,24)];[(59,5,24)]
]%nat.
