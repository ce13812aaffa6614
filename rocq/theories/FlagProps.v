(* C36-C40: pkg/flag.  Statements only; proofs in FlagProofs.v. *)
From Verif Require Import GoBase GoFacts Utf8Facts FlagModel FlagSpec FlagProofs.

(* C36 is false for every value flag with a non-ASCII name: a string flag takes the remaining bytes of its
   own name as its value, and the argument meant for it is parsed as if it were the next one; ... *)
Theorem C36_round_trip_refuted : forall p gs g c a v rest os, Forall (group_ok p) gs ->
  Forall (fun g => match value g with Some f => (vname f < 128)%N | None => True end) gs ->
  group_ok p g -> value g = Some (VStr c a v) -> (128 <= c)%N ->
  parse p (Some (flat_map group_args gs ++ (B "-" ++ string_of_runes (names g)) :: rest)) os =
  (flat_map group_writes gs ++ map (fun f => WBool (snd f)) (flags g) ++
     WStr a (tl (encode_rune c)) :: fst (parse p (Some rest) os), snd (parse p (Some rest) os)).
Proof. intros. rewrite (wide_value p gs g (VStr c a v)) by auto. cbv zeta. now rewrite <- List.app_assoc. Qed.
Print Assumptions C36_round_trip_refuted.
(* ... an integer flag is refused, whatever the value. *)
Theorem C36_int_refuted : forall p gs g c a t z rest os, Forall (group_ok p) gs ->
  Forall (fun g => match value g with Some f => (vname f < 128)%N | None => True end) gs ->
  group_ok p g -> value g = Some (VInt c a t z) -> (128 <= c)%N ->
  parse p (Some (flat_map group_args gs ++ (B "-" ++ string_of_runes (names g)) :: rest)) os =
  (flat_map group_writes gs ++ map (fun f => WBool (snd f)) (flags g), Fail err_non_int).
Proof. intros. rewrite (wide_value p gs g (VInt c a t z)) by auto. reflexivity. Qed.
Print Assumptions C36_int_refuted.
Example C36_refuted_nonvacuous :
  let p := IntVar (StringVar new_parser 0 233) 1 234 in
  group_ok p {| flags := []; value := Some (VStr 233 0 (B "x")) |} /\
  group_ok p {| flags := []; value := Some (VInt 234 1 (B "7") 7) |} /\
  parse p (Some (group_args {| flags := []; value := Some (VStr 233 0 (B "x")) |})) [] =
    ([WStr 0 [ascii_of_N 169]], Positional [B "x"]) /\
  parse p (Some (group_args {| flags := []; value := Some (VInt 234 1 (B "7") 7) |})) [] = ([], Fail err_non_int).
Proof.
  cbv zeta. split; [|split; [|split; vm_compute; reflexivity]].
  - split; [discriminate|]. split; [discriminate|]. split; [repeat constructor|].
    split; [constructor|]. split; reflexivity.
  - split; [discriminate|]. split; [discriminate|]. split; [repeat constructor|].
    split; [constructor|]. split; [repeat split; reflexivity|]. apply parse_int_spec. reflexivity.
Qed.
(* It holds when value flags have ASCII names (Boolean flags may be any rune). *)
Theorem C36_round_trip_partial : forall p gs tail rest os, Forall (group_ok p) gs ->
  Forall (fun g => match value g with Some f => (vname f < 128)%N | None => True end) gs ->
  ends_options tail rest ->
  parse p (Some (flat_map group_args gs ++ tail)) os = (flat_map group_writes gs, Positional rest).
Proof. exact round_trip. Qed.
Print Assumptions C36_round_trip_partial.
(* What the flags are: the last registration of a name counts, a Boolean flag comes before a string flag of the
   same name and that before an integer flag, and all registrations stay in force. *)
Theorem C36_registration : forall l c,
  (forall a, is_bool (registered l) c a <-> last_as KBool c a l) /\
  (forall a, is_string (registered l) c a <-> never_as KBool c l /\ last_as KString c a l) /\
  (forall a, is_int (registered l) c a <-> never_as KBool c l /\ never_as KString c l /\ last_as KInt c a l) /\
  (unregistered (registered l) c <-> forall r, In r l -> r_name r <> c).
Proof.
  intros l c. unfold is_bool, is_string, is_int, unregistered.
  destruct (registered_bool l c) as [B1 B2], (registered_string l c) as [S1 S2], (registered_int l c) as [I1 I2].
  split; [exact B1|]. split; [intros a; now rewrite B2, S1|]. split; [intros a; now rewrite B2, S2, I1|].
  rewrite B2, S2, I2. split.
  - intros (HB&HS&HI) r I. destruct (r_kind r) eqn:K; [apply (HB r)|apply (HS r)|apply (HI r)]; auto.
  - intros H. repeat split; intros r I _; auto.
Qed.
Print Assumptions C36_registration.
Example C36_registration_nonvacuous :
  let l := [{| r_kind := KInt; r_name := 110; r_var := 0 |}; {| r_kind := KString; r_name := 112; r_var := 1 |}; {| r_kind := KInt; r_name := 110; r_var := 2 |}] in
  is_int (registered l) 110 2 /\ is_string (registered l) 112 1 /\ unregistered (registered l) 113.
Proof. repeat split. Qed.
(* a nil Input means the program's own arguments *)
Theorem C36_default_input : forall p os, parse p None os = parse p (Some os) os.
Proof. reflexivity. Qed.
Print Assumptions C36_default_input.
(* Parse always ends *)
Theorem C36_terminates : forall p input os, snd (parse p input os) <> OutOfFuel.
Proof. intros. apply parse_no_fuel. apply Nat.le_refl. Qed.
Print Assumptions C36_terminates.
Definition demo : parser := StringVar (IntVar (BoolVar (BoolVar new_parser 0 118) 1 233) 2 110) 3 112.
Example C36_nonvacuous :
  let g1 := {| flags := [(118%N, 0); (233%N, 1)]; value := Some (VInt 110 2 (B "-0x1F") (-31)) |} in
  let g2 := {| flags := []; value := Some (VStr 112 3 (B "--")) |} in
  Forall (group_ok demo) [g1; g2] /\
  parse demo (Some (flat_map group_args [g1; g2] ++ [B "--"; B "-v"])) [] =
    ([WBool 0; WBool 1; WInt 2 (-31); WStr 3 (B "--")], Positional [B "-v"]).
Proof.
  cbv zeta. split; [|vm_compute; reflexivity].
  constructor; [|constructor; [|constructor]].
  - split; [discriminate|]. split; [discriminate|].
    split; [repeat constructor|].
    split; [repeat constructor|]. split; [split; [|split]; reflexivity|].
    apply parse_int_spec. reflexivity.
  - split; [discriminate|]. split; [discriminate|].
    split; [repeat constructor|]. split; [constructor|]. split; reflexivity.
Qed.

(* C37 *)
Theorem C37_positional_suffix : forall p input os ws l, parse p (Some input) os = (ws, Positional l) ->
  exists pre, input = pre ++ l /\
    (l = [] \/
     (exists pre0, pre = pre0 ++ [B "--"] /\
       forall l', parse p (Some (pre ++ l')) os = (ws, Positional l')) \/
     (exists a r, l = a :: r /\ (a = [] \/ a = B "-" \/ hd "-"%char a <> "-"%char) /\
       forall r', parse p (Some (pre ++ a :: r')) os = (ws, Positional (a :: r')))).
Proof. exact positional_suffix. Qed.
Print Assumptions C37_positional_suffix.
Example C37_nonvacuous : parse demo (Some (map B ["-vn"; "7"; "x"; "-v"; "--"]%string)) [] =
  ([WBool 0; WInt 2 7], Positional (map B ["x"; "-v"; "--"]%string)).
Proof. vm_compute. reflexivity. Qed.

(* C38 is false for every value: the value's characters are parsed as flags as well. *)
Theorem C38_attached_value_refuted : forall p c a v rest os, (c < 128)%N -> is_string p c a -> v <> [] ->
  "-"%char :: ascii_of_N c :: v <> B "--" ->
  forall l, parse p (Some ((B "-" ++ [ascii_of_N c] ++ v) :: rest)) os <> ([WStr a v], Positional l).
Proof.
  intros p c a v rest os C S V N l E. destruct (attached p c a v rest os C S V N) as (more&M1&M2).
  rewrite E in M1, M2. cbn [fst snd] in M1, M2. apply (M2 l eq_refl). congruence.
Qed.
Print Assumptions C38_attached_value_refuted.
(* What holds: the flag is given that value first. *)
Theorem C38_attached_value_partial : forall p c a v rest os, (c < 128)%N -> is_string p c a -> v <> [] ->
  "-"%char :: ascii_of_N c :: v <> B "--" ->
  exists more, fst (parse p (Some ((B "-" ++ [ascii_of_N c] ++ v) :: rest)) os) = WStr a v :: more.
Proof.
  intros p c a v rest os C S V N. destruct (attached p c a v rest os C S V N) as (more&M1&_). eauto.
Qed.
Print Assumptions C38_attached_value_partial.
Example C38_nonvacuous : is_string demo 112 3 /\
  parse demo (Some [B "-pv"]) [] = ([WStr 3 (B "v"); WBool 0], Positional []) /\
  parse demo (Some [B "-pxy"]) [] = ([WStr 3 (B "xy")], Fail err_unknown).
Proof. repeat split; vm_compute; reflexivity. Qed.

(* C39: the text is a decimal numeral ... *)
Theorem C39_decimal : forall p c a z tail rest os, (c < 128)%N -> c <> 45%N -> is_int p c a ->
  (min_int64 <= z <= max_int64)%Z -> ends_options tail rest ->
  parse p (Some (["-"%char; ascii_of_N c] :: itoa z :: tail)) os = ([WInt a z], Positional rest).
Proof.
  intros p c a z tail rest os C N I R E. destruct (int_flag p c a (itoa z) rest os C N I) as (_&H&_).
  apply H; auto. apply parse_int_spec, parse_int_itoa; auto.
Qed.
Print Assumptions C39_decimal.
(* ... or any Go integer literal of an int64 value, ... *)
Theorem C39_literal : forall p c a t z tail rest os, (c < 128)%N -> c <> 45%N -> is_int p c a ->
  int64_text t z -> ends_options tail rest ->
  parse p (Some (["-"%char; ascii_of_N c] :: t :: tail)) os = ([WInt a z], Positional rest).
Proof.
  intros p c a t z tail rest os C N I R E. destruct (int_flag p c a t rest os C N I) as (_&H&_). apply H; auto.
Qed.
Print Assumptions C39_literal.
(* ... and any other text is an error and writes nothing. *)
Theorem C39_not_an_integer : forall p c a t rest os, (c < 128)%N -> c <> 45%N -> is_int p c a ->
  (forall z, ~ int64_text t z) ->
  parse p (Some (["-"%char; ascii_of_N c] :: t :: rest)) os = ([], Fail err_non_int).
Proof.
  intros p c a t rest os C N I R. destruct (int_flag p c a t rest os C N I) as (_&_&H). apply H; auto.
Qed.
Print Assumptions C39_not_an_integer.
Example C39_nonvacuous : is_int demo 110 2 /\ (forall z, ~ int64_text (B "12a") z) /\
  (forall z, ~ int64_text (B "9223372036854775808") z) /\ int64_text (B "-9223372036854775808") min_int64 /\
  int64_text (B "017") 15.
Proof.
  split; [repeat split|]. split; [|split; [|split]].
  - intros z H. apply parse_int_spec in H. vm_compute in H. discriminate.
  - intros z H. apply parse_int_spec in H. vm_compute in H. discriminate.
  - apply parse_int_spec. vm_compute. reflexivity.
  - apply parse_int_spec. vm_compute. reflexivity.
Qed.

(* C40 is false: both kinds of mistake crash at the end of the command line. *)
Theorem C40_missing_value_refuted : forall p fs c os, Forall (fun f => is_bool p (fst f) (snd f)) fs ->
  Forall valid_rune (map fst fs) -> (c < 128)%N -> assoc c (bools p) = None ->
  map fst fs ++ [c] <> [45%N] ->
  snd (parse p (Some [B "-" ++ string_of_runes (map fst fs ++ [c])]) os) = Crash.
Proof. exact missing_value. Qed.
Print Assumptions C40_missing_value_refuted.
(* An unknown flag is reported exactly when it has a non-ASCII name or something follows it. *)
Theorem C40_unknown_flag_partial : forall p fs c v rest os, Forall (fun f => is_bool p (fst f) (snd f)) fs ->
  Forall valid_rune (map fst fs) -> valid_rune c -> unregistered p c ->
  B "-" ++ string_of_runes (map fst fs) ++ encode_rune c ++ v <> B "--" ->
  (snd (parse p (Some ((B "-" ++ string_of_runes (map fst fs) ++ encode_rune c ++ v) :: rest)) os) = Fail (B "man what's happening") <->
   (128 <= c)%N \/ v <> [] \/ rest <> []).
Proof.
  intros p fs c v rest os F V Vc U N. rewrite unknown_flag by auto.
  destruct (128 <=? c)%N eqn:C; cbn [orb].
  - split; auto. intros _. left. lia.
  - destruct v as [|x v]; cbn [beqb negb orb]; [destruct rest as [|y rest]|].
    + split; [discriminate|]. intros [H|[H|H]]; congruence || lia.
    + split; auto. intros _. right; right. discriminate.
    + split; auto. intros _. right; left. discriminate.
Qed.
Print Assumptions C40_unknown_flag_partial.
Example C40_nonvacuous : unregistered demo 113 /\
  snd (parse demo (Some [B "-vq"]) []) = Crash /\ snd (parse demo (Some [B "-vq"; B "x"]) []) = Fail err_unknown /\
  snd (parse demo (Some [B "-n"]) []) = Crash.
Proof. repeat split; vm_compute; reflexivity. Qed.
