(* C144 and C145: the token array of ed's parser, and the syntax tree made from it. *)
From Verif Require Import GoBase GoFacts RuneFacts EdModel EdPegModel EdErrModel EdTreeModel EdTreeSpec EdTreeProofs.
Local Open Scope nat_scope.

(* C144.  Whatever earlier attempts and earlier parses left in the array (which must not be empty): if the grammar derives the
   command, the tokens are those of its one derivation, and Execute gets from them what the model of EdPegModel.v says; if it
   does not, the parse fails with the token EdErrModel.v says.  There is no third case: no index is out of range, in the
   runes or in the array, and the parser ends. *)
Theorem C144_tokens : forall tree buf, tree <> [] -> exists tree', tree' <> [] /\
  ((exists toks, parse_on tree buf = (Accepted toks, tree') /\
      (exists j, derives (runes_of buf) n_first 0 (Some (j, toks))) /\ Parse buf = Val (Some (exec_tokens toks))) \/
   (exists max, parse_on tree buf = (Rejected max, tree') /\
      derives (runes_of buf) n_first 0 None /\ Parse buf = Val None /\ parse_token buf = Val (Some max))).
Proof.
  intros tree buf H. destruct (parse_on_ok tree buf H) as [N X]. exists (snd (parse_on tree buf)). split; [exact N|].
  destruct (parse_on tree buf) as [o tr]. cbn [fst snd] in *. destruct X as [(toks&j&->&D&P)|(m&->&D&P&T)].
  - left. exists toks. split; [reflexivity|]. split; [now exists j|exact P].
  - right. exists m. auto.
Qed.
Print Assumptions C144_tokens.
Theorem C144_one_derivation : forall rs e i x y, derives rs e i x -> derives rs e i y -> x = y.
Proof. intros. now apply (derives_functional rs e i x). Qed.
Print Assumptions C144_one_derivation.

Definition stale : list token32 := [tok (GRule (B "stale")) 7 9].
Definition demo_tokens : list token32 :=
  match fst (parse_on stale (B "1,$p" ++ [nl])) with Accepted l => l | _ => [] end.
Example C144_nonvacuous : stale <> [] /\ first_tree <> [] /\ List.length demo_tokens = 26 /\
  exec_tokens demo_tokens =
    [TText 0 1; TAct 22; TText 0 1; TAct 19; TAct 17; TAct 21; TText 2 3; TAct 19; TAct 18; TAct 44; TAct 1; TAct 0] /\
  List.length (snd (parse_on stale (B "1,$p" ++ [nl]))) = 32 /\
  fst (parse_on stale (B "1,2x" ++ [nl])) = Rejected {| t_rule := B "PegText"; t_begin := 2; t_end := 3 |}.
Proof. split; [discriminate|]. split; [discriminate|]. vm_compute. repeat split; reflexivity. Qed.

(* C145.  For every command the parser accepts: the tree has the rule of the whole grammar at its root, spanning the command; its
   nodes, children first, are the tokens that cover some text, each once and in order; and children stand inside their
   parent, one after the other.  No tree is made of nothing. *)
Theorem C145_tree : forall tree buf toks tree', tree <> [] -> parse_on tree buf = (Accepted toks, tree') ->
  (buf = [] -> AST toks = None) /\
  (buf <> [] -> exists root, AST toks = Some root /\ n_tok root = tok (GRule (B "first")) 0 (List.length (runes_of buf)) /\
     nested root /\ postorder root = filter covers_text toks).
Proof.
  intros tree buf toks tree' H E. destruct (parse_on_ok tree buf H) as [_ X]. rewrite E in X. cbn [fst] in X.
  destruct X as [(toks'&j&Q&D&_)|(m&Q&_)]; [|discriminate]. injection Q as <-.
  destruct (ast_first _ _ _ D) as [A1 A2]. split.
  - intros ->. now apply A1.
  - intros N. apply A2. destruct (decode_rune buf) as [r w] eqn:Dr. rewrite (runes_of_step buf r w N Dr). discriminate.
Qed.
Print Assumptions C145_tree.

(* C145, printing: one line for each node, parents first, indented by the depth, with the name of the rule and the text; no
   slice is out of range. *)
Theorem C145_print : forall quote tree buf toks tree', tree <> [] -> parse_on tree buf = (Accepted toks, tree') ->
  WriteSyntaxTree quote toks buf =
    Some (match AST toks with Some root => flat_map (tree_line quote (runes_of buf)) (preorder 0 root) | None => [] end).
Proof.
  intros quote tree buf toks tree' H E. unfold WriteSyntaxTree. destruct (AST toks) as [root|] eqn:A; [|reflexivity].
  destruct (C145_tree tree buf toks tree' H E) as [A1 A2].
  destruct buf as [|c buf]; [rewrite A1 in A by reflexivity; discriminate|].
  destruct A2 as (root'&A'&T&N&_); [discriminate|]. rewrite A in A'. injection A' as <-.
  apply print_ok; [exact N|]. rewrite T. cbn. lia.
Qed.
Print Assumptions C145_print.

Example C145_nonvacuous :
  WriteSyntaxTree (fun s => B "<" ++ filter (fun c => negb (Ascii.eqb c nl)) s ++ B ">") demo_tokens (B "1,$p" ++ [nl]) =
  Some (join [nl]
    [B "first <1,$p>"; B " e <1,$p>"; B "  cmd <1,$p>"; B "   rangeCmd <1,$p>"; B "    range <1,$>"; B "     startAddr <1>"; B "      addrO <1>";
     B "       PegText <1>"; B "        addr <1>"; B "         literalAddr <1>"; B "          PegText <1>"; B "     endAddr <$>"; B "      addrO <$>";
     B "       PegText <$>"; B "        addr <$>"; B "    rangeC <p>"; B "  newLine <>"; []]).
Proof. vm_compute. reflexivity. Qed.
