(* Which token a syntax error of ed names, for several kinds of wrong commands. *)
From Verif Require Import GoBase GoFacts NumFacts Utf8Facts EdModel EdPegModel EdPegSpec EdPegProofs EdPegProofs2 EdPegProofs4
  EdErrModel EdErrSpec EdErrProofs.
Local Open Scope nat_scope.

(* ---- steps ---- *)
Lemma nseq_ok : forall a b m pos rest p r m1, nmatch a m pos rest = (NOk p r, m1) -> nmatch (NSeq a b) m pos rest = nmatch b m1 p r.
Proof. intros. cbn [nmatch]. now rewrite H. Qed.
Lemma nseq_fail : forall a b m pos rest m1, nmatch a m pos rest = (NFail, m1) -> nmatch (NSeq a b) m pos rest = (NFail, m1).
Proof. intros. cbn [nmatch]. now rewrite H. Qed.
Lemma nalt_ok : forall a b m pos rest p r m1, nmatch a m pos rest = (NOk p r, m1) -> nmatch (NAlt a b) m pos rest = (NOk p r, m1).
Proof. intros. cbn [nmatch]. now rewrite H. Qed.
Lemma nalt_fail : forall a b m pos rest m1, nmatch a m pos rest = (NFail, m1) -> nmatch (NAlt a b) m pos rest = nmatch b m1 pos rest.
Proof. intros. cbn [nmatch]. now rewrite H. Qed.
Lemma nrule_ok : forall n a m pos rest p r m1, nmatch a m pos rest = (NOk p r, m1) -> nmatch (NRule n a) m pos rest = (NOk p r, add n pos p m1).
Proof. intros. cbn [nmatch]. now rewrite H. Qed.
Lemma nrule_fail : forall n a m pos rest m1, nmatch a m pos rest = (NFail, m1) -> nmatch (NRule n a) m pos rest = (NFail, m1).
Proof. intros. cbn [nmatch]. now rewrite H. Qed.
Lemma nopt_fail : forall a m pos rest m1, nmatch a m pos rest = (NFail, m1) -> nmatch (NOpt a) m pos rest = (NOk pos rest, m1).
Proof. intros. cbn [nmatch]. now rewrite H. Qed.
Lemma nact_ok : forall n m pos rest, nmatch (NAct n) m pos rest = (NOk pos rest, m).
Proof. intros. cbn [nmatch]. unfold add. now rewrite Nat.eqb_refl. Qed.
Lemma nchr_ok : forall c m pos rest, nmatch (nchr c) m pos (byte_val c :: rest) = (NOk (S pos) rest, m).
Proof. intros. cbn [nmatch nchr]. now rewrite N.eqb_refl. Qed.
Lemma add_same : forall n p m, add n p p m = m.
Proof. intros. unfold add. now rewrite Nat.eqb_refl. Qed.
Lemma add_no : forall n b p m, p <= t_end m -> add n b p m = m.
Proof. intros. unfold add. rewrite (proj2 (Nat.ltb_ge _ _) H). now rewrite andb_false_r. Qed.
Lemma add_yes : forall n b p m, b < p -> t_end m < p -> add n b p m = {| t_rule := n; t_begin := b; t_end := p |}.
Proof. intros. unfold add. rewrite (proj2 (Nat.eqb_neq b p)), (proj2 (Nat.ltb_lt _ _) H0) by lia. reflexivity. Qed.

(* ---- a character an expression does not begin with ---- *)
Fixpoint touches (e : nexp) (c : N) : bool :=
  match e with
  | NChr x => N.eqb c x
  | NRange lo hi => N.leb lo c && N.leb c hi
  | NDot => true
  | NSeq a b => touches a c || (nullable (bare a) && touches b c)
  | NAlt a b => touches a c || touches b c
  | NStar a | NOpt a | NText a | NNot a | NRule _ a => touches a c
  | NAct _ => false
  end%bool.
(* the characters it may begin with, as intervals; None stands for all *)
Definition hits (c : N) (i : option (N * N)) : bool :=
  match i with Some (lo, hi) => N.leb lo c && N.leb c hi | None => true end%bool.
Fixpoint firsts (e : nexp) : list (option (N * N)) :=
  match e with
  | NChr x => [Some (x, x)]
  | NRange lo hi => [Some (lo, hi)]
  | NDot => [None]
  | NSeq a b => firsts a ++ (if nullable (bare a) then firsts b else [])
  | NAlt a b => firsts a ++ firsts b
  | NStar a | NOpt a | NText a | NNot a | NRule _ a => firsts a
  | NAct _ => []
  end.
Lemma touches_firsts : forall e c, touches e c = existsb (hits c) (firsts e).
Proof.
  induction e; intros x; cbn [touches firsts]; auto.
  - cbn [existsb hits]. rewrite orb_false_r. destruct (N.eqb_spec x c) as [->|].
    + now rewrite N.leb_refl.
    + symmetry. apply andb_false_iff. rewrite !N.leb_gt. lia.
  - cbn [existsb hits]. now rewrite orb_false_r.
  - rewrite existsb_app, <- IHe1. destruct (nullable (bare e1)); [now rewrite IHe2|reflexivity].
  - now rewrite existsb_app, IHe1, IHe2.
Qed.
Lemma untouched : forall e c, touches e c = false -> forall m pos t x m1, nmatch e m pos (c :: t) = (x, m1) ->
  m1 = m /\ forall p r, x = NOk p r -> p = pos /\ r = c :: t.
Proof.
  induction e; intros x Tc m pos tl y m1 H; cbn [nmatch touches] in *.
  - rewrite Tc in H. injection H as <- <-. split; [auto|discriminate].
  - rewrite Tc in H. injection H as <- <-. split; [auto|discriminate].
  - discriminate.
  - apply orb_false_iff in Tc as [T1 T2]. destruct (nmatch e1 m pos (x :: tl)) as [z m2] eqn:E1.
    destruct (IHe1 _ T1 _ _ _ _ _ E1) as [-> Q]. destruct z as [p r| |]; try (injection H as <- <-; split; [auto|discriminate]).
    destruct (Q _ _ eq_refl) as [-> ->]. destruct (nullable (bare e1)) eqn:N.
    + eapply IHe2; eauto.
    + exfalso. pose proof (nmatch_same e1 m pos (x :: tl)) as K. rewrite E1 in K. cbn [fst] in K.
      destruct (pmatch (bare e1) pos (x :: tl)) as [p' r' t'| |] eqn:P; cbn [same] in K; try discriminate.
      injection K as <- <-. apply nonnullable_moves in P; auto. lia.
  - apply orb_false_iff in Tc as [T1 T2]. destruct (nmatch e1 m pos (x :: tl)) as [z m2] eqn:E1.
    destruct (IHe1 _ T1 _ _ _ _ _ E1) as [-> Q]. destruct z as [p r| |]; [injection H as <- <-; auto| |injection H as <- <-; split; [auto|discriminate]].
    eapply IHe2; eauto.
  - cbn [nstar_loop] in H. destruct (nmatch e m pos (x :: tl)) as [z m2] eqn:E1.
    destruct (IHe _ Tc _ _ _ _ _ E1) as [-> Q]. destruct z as [p r| |].
    + destruct (Q _ _ eq_refl) as [-> ->]. rewrite Nat.eqb_refl in H. injection H as <- <-. split; [auto|discriminate].
    + injection H as <- <-. split; [auto|]. now intros p r [= <- <-].
    + injection H as <- <-. split; [auto|discriminate].
  - destruct (nmatch e m pos (x :: tl)) as [z m2] eqn:E1. destruct (IHe _ Tc _ _ _ _ _ E1) as [-> Q].
    destruct z as [p r| |]; injection H as <- <-; (split; [auto|]); [exact Q| |discriminate]. now intros p r [= <- <-].
  - destruct (nmatch e m pos (x :: tl)) as [z m2] eqn:E1. destruct (IHe _ Tc _ _ _ _ _ E1) as [-> Q].
    destruct z as [p r| |]; injection H as <- <-; (split; [auto|]); [discriminate| |discriminate]. now intros p r [= <- <-].
  - destruct (nmatch e m pos (x :: tl)) as [z m2] eqn:E1. destruct (IHe _ Tc _ _ _ _ _ E1) as [-> Q].
    destruct z as [p r| |]; injection H as <- <-; [|split; [auto|discriminate]..].
    destruct (Q _ _ eq_refl) as [-> ->]. rewrite add_same. auto.
  - rewrite add_same in H. injection H as <- <-. split; [auto|]. now intros p r [= <- <-].
  - destruct (nmatch e m pos (x :: tl)) as [z m2] eqn:E1. destruct (IHe _ Tc _ _ _ _ _ E1) as [-> Q].
    destruct z as [p r| |]; injection H as <- <-; [|split; [auto|discriminate]..].
    destruct (Q _ _ eq_refl) as [-> ->]. rewrite add_same. auto.
Qed.
(* an expression that has to begin with something else *)
Definition must (e : nexp) : bool := (sound (bare e) && negb (nullable (bare e)))%bool.
Lemma cannot : forall e c m pos t, must e = true -> touches e c = false -> nmatch e m pos (c :: t) = (NFail, m).
Proof.
  intros e c m pos t Mu Tc. apply andb_true_iff in Mu as [So Nu]. apply negb_true_iff in Nu.
  destruct (nmatch e m pos (c :: t)) as [x m1] eqn:E. destruct (untouched _ _ Tc _ _ _ _ _ E) as [-> Q].
  pose proof (nmatch_same e m pos (c :: t)) as K. rewrite E in K. cbn [fst] in K.
  destruct (pmatch (bare e) pos (c :: t)) as [p r k| |] eqn:P; cbn [same] in K; subst x; [|reflexivity|].
  - destruct (Q _ _ eq_refl) as [-> _]. apply nonnullable_moves in P; auto. lia.
  - now apply sound_no_hang in P.
Qed.
Lemma cannot_opt : forall e c m pos t, must e = true -> touches e c = false -> nmatch (NOpt e) m pos (c :: t) = (NOk pos (c :: t), m).
Proof. intros. apply nopt_fail. now apply cannot. Qed.
Lemma cannot_star : forall e c m pos t, must e = true -> touches e c = false -> nmatch (NStar e) m pos (c :: t) = (NOk pos (c :: t), m).
Proof. intros e c m pos t Mu Tc. cbn [nmatch nstar_loop]. now rewrite cannot. Qed.

(* ---- blanks ---- *)
Lemma blank_alt : forall m pos c t, nmatch (NAlt (nchr " ") (nchr tab)) m pos (c :: t) = (if blankN c then NOk (S pos) t else NFail, m).
Proof.
  intros. cbn [nmatch nchr]. unfold blankN. destruct (N.eqb c (byte_val " ")) eqn:E1; cbn [orb].
  - apply N.eqb_eq in E1 as ->. reflexivity.
  - destruct (N.eqb c (byte_val tab)) eqn:E2; [apply N.eqb_eq in E2 as ->; reflexivity|].
    change (byte_val " ") with 32%N in E1. change (byte_val tab) with 9%N in E2. try rewrite E1; try rewrite E2; reflexivity.
Qed.
Lemma blank_loop : forall bs k m pos c t, blanksN bs -> blankN c = false -> List.length bs < k ->
  nstar_loop (nmatch (NAlt (nchr " ") (nchr tab))) k m pos (bs ++ c :: t) = (NOk (pos + List.length bs) (c :: t), m).
Proof.
  induction bs as [|b bs IH]; intros k m pos c t Bs Bc L; (destruct k as [|k]; [cbn in L; lia|]).
  - cbn [nstar_loop app List.length]. rewrite blank_alt, Bc, Nat.add_0_r. reflexivity.
  - cbn [nstar_loop app]. rewrite blank_alt, (Forall_inv Bs). rewrite (proj2 (Nat.eqb_neq (S pos) pos)) by lia.
    rewrite IH; [|exact (Forall_inv_tail Bs)|exact Bc|cbn in L; lia]. cbn [List.length]. do 2 f_equal. lia.
Qed.
Lemma n_sp_ok : forall b bs m pos c t, blanksN (b :: bs) -> blankN c = false ->
  nmatch n_sp m pos (b :: bs ++ c :: t) = (NOk (pos + S (List.length bs)) (c :: t), add (B "sp") pos (pos + S (List.length bs)) m).
Proof.
  intros b bs m pos c t Bs Bc. apply nrule_ok. unfold NPlus.
  assert (H : nmatch (NAlt (nchr " ") (nchr tab)) m pos (b :: bs ++ c :: t) = (NOk (S pos) (bs ++ c :: t), m))
    by (rewrite blank_alt, (Forall_inv Bs); reflexivity).
  rewrite (nseq_ok _ _ _ _ _ _ _ _ H).
  change (nmatch (NStar (NAlt (nchr " ") (nchr tab))) m (S pos) (bs ++ c :: t)) with
    (nstar_loop (nmatch (NAlt (nchr " ") (nchr tab))) (S (List.length (bs ++ c :: t))) m (S pos) (bs ++ c :: t)).
  rewrite blank_loop; [|exact (Forall_inv_tail Bs)|exact Bc|rewrite app_length; cbn [List.length]; lia].
  do 2 f_equal. lia.
Qed.
Lemma n_sp_fails : forall m pos c t, blankN c = false -> nmatch n_sp m pos (c :: t) = (NFail, m).
Proof. intros m pos c t H. apply cannot; [reflexivity|]. rewrite touches_firsts. cbn. unfold blankN in H. apply orb_false_iff in H as [H1 H2].
  apply N.eqb_neq in H1, H2. rewrite !orb_false_r. apply orb_false_iff. split; apply andb_false_iff; rewrite !N.leb_gt; lia. Qed.
Lemma n_sps : forall bs m pos c t, blanksN bs -> blankN c = false ->
  nmatch (NStar n_sp) m pos (bs ++ c :: t) = (NOk (pos + List.length bs) (c :: t), add (B "sp") pos (pos + List.length bs) m).
Proof.
  intros [|b bs] m pos c t Bs Bc.
  - cbn [nmatch app List.length]. rewrite Nat.add_0_r, add_same. cbn [nstar_loop]. now rewrite n_sp_fails.
  - change (nmatch (NStar n_sp) m pos ((b :: bs) ++ c :: t)) with
      (nstar_loop (nmatch n_sp) (S (List.length ((b :: bs) ++ c :: t))) m pos ((b :: bs) ++ c :: t)).
    cbn [nstar_loop app]. rewrite n_sp_ok by assumption. rewrite (proj2 (Nat.eqb_neq _ pos)) by lia.
    cbn [List.length nstar_loop]. now rewrite n_sp_fails.
Qed.

(* ---- the frame ---- *)
(* the rest of a line after its blanks *)
Definition n_after : nexp := NSeq n_cmd (NSeq (NStar n_sp) (NSeq n_newLine (NAct 1))).
Lemma e_fails : forall lead m c t m1, blanksN lead -> blankN c = false ->
  nmatch n_after (add (B "sp") 0 (List.length lead) m) (List.length lead) (c :: t) = (NFail, m1) ->
  nmatch n_e m 0 (lead ++ c :: t) = (NFail, m1).
Proof.
  intros lead m c t m1 Bl Bc H. apply nrule_fail. fold n_after. rewrite (nseq_ok _ _ _ _ _ _ _ _ (n_sps lead m 0 c t Bl Bc)). exact H.
Qed.
Lemma first_fails : forall m rest m1, rest <> [] -> nmatch n_e m 0 rest = (NFail, m1) -> nmatch n_first m 0 rest = (NFail, m1).
Proof.
  intros m rest m1 Ne H. apply nrule_fail.
  assert (E : nmatch (NStar n_e) m 0 rest = (NOk 0 rest, m1)) by (cbn [nmatch nstar_loop]; now rewrite H).
  rewrite (nseq_ok _ _ _ _ _ _ _ _ E). destruct rest; [congruence|]. reflexivity.
Qed.
Lemma token_of : forall buf lead c t m1, runes_of buf = lead ++ c :: t -> blanksN lead -> blankN c = false ->
  nmatch n_after (add (B "sp") 0 (List.length lead) no_token) (List.length lead) (c :: t) = (NFail, m1) ->
  parse_token buf = Val (Some m1).
Proof.
  intros buf lead c t m1 E Bl Bc H. unfold parse_token. rewrite E, (first_fails _ _ m1); [reflexivity| |now apply e_fails].
  now destruct lead.
Qed.

(* ---- a line no command begins with ---- *)
Definition mem_beginning (c : N) : bool := existsb (fun x => N.eqb c (byte_val x)) (B "hHPqQueEfdjlnp=caikmtrw!,;0123456789'/?.$ " ++ [tab; nl]).
Lemma mem_beginning_ok : forall c, mem_beginning c = true -> beginning c.
Proof. intros c H. apply existsb_exists in H as (x&I&E). apply N.eqb_eq in E. exists x. auto. Qed.
Lemma touches_beginning : forall c, touches n_after c = true -> beginning c.
Proof.
  intros c. rewrite touches_firsts. intros H. apply existsb_exists in H as (i&I&H).
  assert (K : forallb (fun j => match j with
    | Some (lo, hi) => if N.eqb lo hi then mem_beginning lo else N.eqb lo 48 && N.eqb hi 57 | None => false end)%bool (firsts n_after) = true)
    by (vm_compute; reflexivity).
  rewrite forallb_forall in K. specialize (K _ I). destruct i as [[lo hi]|]; [|discriminate]. apply andb_true_iff in H as [H1 H2].
  apply N.leb_le in H1, H2. apply mem_beginning_ok. destruct (N.eqb_spec lo hi) as [->|_].
  - now replace c with hi by lia.
  - apply andb_true_iff in K as [K1 K2]. apply N.eqb_eq in K1, K2. subst lo hi.
    assert (D : (c = 48 \/ c = 49 \/ c = 50 \/ c = 51 \/ c = 52 \/ c = 53 \/ c = 54 \/ c = 55 \/ c = 56 \/ c = 57)%N) by lia.
    repeat destruct D as [-> |D]; try reflexivity. now subst c.
Qed.
Lemma blank_beginning : forall c, blankN c = true -> beginning c.
Proof. intros c H. apply blank_cases in H as [-> | ->]; apply mem_beginning_ok; reflexivity. Qed.
Lemma unknown_token : forall buf lead c t, runes_of buf = lead ++ c :: t -> blanksN lead -> ~ beginning c ->
  parse_token buf = Val (Some (add (B "sp") 0 (List.length lead) no_token)).
Proof.
  intros buf lead c t E Bl Nc. eapply token_of; eauto.
  - destruct (blankN c) eqn:Q; [|reflexivity]. now apply blank_beginning in Q.
  - apply cannot; [reflexivity|]. destruct (touches n_after c) eqn:Q; [|reflexivity]. now apply touches_beginning in Q.
Qed.

(* ---- a command that does not go on as it should ---- *)
(* the rest of a line whose command ends before a character that ends no line *)
Lemma after_stops : forall m pos rest p c t m1, nmatch n_cmd m pos rest = (NOk p (c :: t), m1) -> blankN c = false -> c <> byte_val nl ->
  nmatch n_after m pos rest = (NFail, m1).
Proof.
  intros m pos rest p c t m1 H Bc Nc. unfold n_after. rewrite (nseq_ok _ _ _ _ _ _ _ _ H).
  apply cannot; [reflexivity|]. rewrite touches_firsts. cbn [firsts n_sp n_newLine NPlus nchr bare nullable existsb app hits andb orb].
  unfold blankN in Bc. apply orb_false_iff in Bc as [B1 B2]. apply N.eqb_neq in B1, B2.
  change (byte_val " ") with 32%N. change (byte_val tab) with 9%N. change (byte_val nl) with 10%N in *.
  rewrite orb_false_r. repeat (apply orb_false_iff; split); apply andb_false_iff; rewrite !N.leb_gt; lia.
Qed.
(* the alternatives of a command, one after the other *)
Fixpoint nfirst_of (l : list nexp) (m : named) (pos : nat) (rest : list N) : nres * named :=
  match l with
  | [] => (NFail, m)
  | a :: r => match nmatch a m pos rest with (NFail, m1) => nfirst_of r m1 pos rest | x => x end
  end.
Fixpoint nspine (n : nat) (e : nexp) : list nexp :=
  match n, e with S k, NAlt a b => nspine k a ++ [b] | _, _ => [e] end.
Lemma nfirst_app : forall l l' m pos rest, nfirst_of (l ++ l') m pos rest =
  match nfirst_of l m pos rest with (NFail, m1) => nfirst_of l' m1 pos rest | x => x end.
Proof.
  induction l as [|a l IH]; intros; [reflexivity|]. cbn [app nfirst_of]. destruct (nmatch a m pos rest) as [[p r| |] m1]; auto.
Qed.
Lemma nspine_ok : forall n e m pos rest, nmatch e m pos rest = nfirst_of (nspine n e) m pos rest.
Proof.
  induction n as [|n IH]; intros e m pos rest.
  - cbn [nspine nfirst_of]. destruct (nmatch e m pos rest) as [[p r| |] m1]; auto.
  - destruct e; try (cbn [nspine nfirst_of]; destruct (nmatch _ m pos rest) as [[p r| |] m1]; reflexivity).
    cbn [nspine]. rewrite nfirst_app, <- IH. cbn [nmatch nfirst_of].
    destruct (nmatch e1 m pos rest) as [[p r| |] m1]; auto. destruct (nmatch e2 m1 pos rest) as [[p r| |] m2]; auto.
Qed.
Definition n_cmds : list nexp :=
  [n_bareCmd; n_paramCmd; n_rangeCmd; n_addrCmd; n_changeTextCmd; n_addTextCmd; n_markCmd; n_destCmd; n_readCmd; n_writeCmd;
   n_shellCmd; n_nullCmd].
Lemma n_cmd_ok : forall m pos rest p r m1, nfirst_of n_cmds m pos rest = (NOk p r, m1) -> nmatch n_cmd m pos rest = (NOk p r, add (B "cmd") pos p m1).
Proof. intros m pos rest p r m1 H. unfold n_cmd. apply nrule_ok. rewrite (nspine_ok 11). exact H. Qed.
Lemma nfirst_skip : forall a l m pos rest m1, nmatch a m pos rest = (NFail, m1) -> nfirst_of (a :: l) m pos rest = nfirst_of l m1 pos rest.
Proof. intros. cbn [nfirst_of]. now rewrite H. Qed.
Lemma nfirst_take : forall a l m pos rest p r m1, nmatch a m pos rest = (NOk p r, m1) -> nfirst_of (a :: l) m pos rest = (NOk p r, m1).
Proof. intros. cbn [nfirst_of]. now rewrite H. Qed.
Lemma null_ok : forall c m pos t, touches n_startAddr c = false -> nmatch n_nullCmd m pos (c :: t) = (NOk pos (c :: t), m).
Proof. intros c m pos t H. unfold n_nullCmd. rewrite (nrule_ok _ _ _ _ _ _ _ _ (cannot_opt n_startAddr c m pos t eq_refl H)). now rewrite add_same. Qed.
Ltac skips := repeat match goal with |- nfirst_of (?a :: _) ?m ?pos (?c :: ?t) = _ =>
  rewrite (nfirst_skip a _ m pos (c :: t) m (cannot a c m pos t eq_refl eq_refl)) end.
(* a line whose command begins with c, and fails there *)
Lemma fails_at : forall buf c t m1, runes_of buf = byte_val c :: t -> blankN (byte_val c) = false -> c <> nl -> 
  nfirst_of n_cmds no_token 0 (byte_val c :: t) = (NOk 0 (byte_val c :: t), m1) -> parse_token buf = Val (Some m1).
Proof.
  intros buf c t m1 E Bc Nc H. apply (token_of buf [] (byte_val c) t); [exact E|constructor|exact Bc|].
  change (add (B "sp") 0 (List.length (@nil N)) no_token) with no_token. cbn [List.length].
  rewrite <- (add_same (B "cmd") 0 m1). apply (after_stops _ _ _ 0 (byte_val c) t); [now apply n_cmd_ok|exact Bc|].
  intros Q. apply Nc. apply N.eqb_eq in Q. rewrite byte_eqb in Q. now apply Ascii.eqb_eq in Q.
Qed.
(* k before something that is not a lower case letter *)
Lemma mark_token : forall buf c t, runes_of buf = byte_val "k" :: c :: t -> ~ (97 <= c <= 122)%N -> parse_token buf = Val (Some no_token).
Proof.
  intros buf c t E Nc. apply (fails_at buf "k" (c :: t)); [exact E|reflexivity|discriminate|].
  assert (Mk : nmatch n_markCmd no_token 0 (byte_val "k" :: c :: t) = (NFail, no_token)).
  { unfold n_markCmd. apply nrule_fail.
    rewrite (nseq_ok _ _ _ _ _ _ _ _ (cannot_opt n_startAddr (byte_val "k") no_token 0 (c :: t) eq_refl eq_refl)).
    rewrite (nseq_ok _ _ _ _ _ _ _ _ (nchr_ok "k" no_token 0 (c :: t))). apply nseq_fail. cbn [nmatch nrng].
    change (byte_val "a") with 97%N. change (byte_val "z") with 122%N.
    assert (X : (N.leb 97 c && N.leb c 122)%bool = false) by (apply andb_false_iff; rewrite !N.leb_gt; lia).
    now rewrite X. }
  unfold n_cmds. skips. rewrite (nfirst_skip _ _ _ _ _ _ Mk). skips. apply nfirst_take. now apply null_ok.
Qed.
(* r and blanks, without a name *)
Lemma read_token : forall buf b bs t, runes_of buf = byte_val "r" :: b :: bs ++ byte_val nl :: t -> blanksN (b :: bs) ->
  parse_token buf = Val (Some {| t_rule := B "sp"; t_begin := 1; t_end := S (S (List.length bs)) |}).
Proof.
  intros buf b bs t E Bs. apply (fails_at buf "r" (b :: bs ++ byte_val nl :: t)); [exact E|reflexivity|discriminate|].
  set (m1 := {| t_rule := B "sp"; t_begin := 1; t_end := S (S (List.length bs)) |}).
  assert (Rd : nmatch n_readCmd no_token 0 (byte_val "r" :: b :: bs ++ byte_val nl :: t) = (NFail, m1)).
  { unfold n_readCmd. apply nrule_fail.
    rewrite (nseq_ok _ _ _ _ _ _ _ _ (cannot_opt n_startAddr (byte_val "r") no_token 0 _ eq_refl eq_refl)).
    rewrite (nseq_ok _ _ _ _ _ _ _ _ (nchr_ok "r" no_token 0 _)).
    rewrite (nseq_ok _ _ _ _ _ _ _ _ (n_sp_ok b bs no_token 1 (byte_val nl) t Bs eq_refl)).
    rewrite add_yes by (cbn; lia). apply nseq_fail. reflexivity. }
  unfold n_cmds. skips. rewrite (nfirst_skip _ _ _ _ _ _ Rd). skips. apply nfirst_take. now apply null_ok.
Qed.
(* a command letter that takes a range, and something after it *)
Lemma range_token : forall buf lead x ty c t, runes_of buf = lead ++ byte_val x :: c :: t -> blanksN lead -> range_letter x ty ->
  blankN c = false -> c <> byte_val nl ->
  parse_token buf = Val (Some {| t_rule := B "rangeC"; t_begin := List.length lead; t_end := S (List.length lead) |}).
Proof.
  intros buf lead x ty c t E Bl Lx Bc Nc.
  assert (Bx : blankN (byte_val x) = false) by (destruct Lx as [[= <- _]|[[= <- _]|[[= <- _]|[[= <- _]|[[= <- _]|[]]]]]]; reflexivity).
  eapply (token_of buf lead (byte_val x) (c :: t)); [exact E|exact Bl|exact Bx|].
  set (m0 := add (B "sp") 0 (List.length lead) no_token). set (n := List.length lead).
  assert (L0 : t_end m0 <= n).
  { unfold m0, add. cbn [no_token t_end]. fold n. destruct (negb (0 =? n) && (0 <? n))%bool; cbn; lia. }
  set (m1 := {| t_rule := B "rangeC"; t_begin := n; t_end := S n |}).
  assert (Rc : nmatch n_rangeCmd m0 n (byte_val x :: c :: t) = (NOk (S n) (c :: t), m1)).
  { unfold n_rangeCmd.
    rewrite <- (add_no (B "rangeCmd") n (S n) m1) by (cbn; lia). apply nrule_ok.
    assert (O : nmatch (NOpt n_range) m0 n (byte_val x :: c :: t) = (NOk n (byte_val x :: c :: t), m0)).
    { apply cannot_opt; [reflexivity|]. destruct Lx as [[= <- _]|[[= <- _]|[[= <- _]|[[= <- _]|[[= <- _]|[]]]]]]; reflexivity. }
    rewrite (nseq_ok _ _ _ _ _ _ _ _ O).
    pose proof (n_sps [] m0 n (byte_val x) (c :: t) (Forall_nil _) Bx) as Q. cbn [app List.length] in Q. rewrite Nat.add_0_r, add_same in Q.
    rewrite (nseq_ok _ _ _ _ _ _ _ _ Q).
    replace m1 with (add (B "rangeC") n (S n) m0) by (apply add_yes; lia). unfold n_rangeC. apply nrule_ok.
    destruct Lx as [[= <- _]|[[= <- _]|[[= <- _]|[[= <- _]|[[= <- _]|[]]]]]]; rewrite (nspine_ok 4); cbn [nspine app]; skips;
      apply nfirst_take; (rewrite (nseq_ok _ _ _ _ _ _ _ _ (nchr_ok _ _ _ _)); apply nact_ok). }
  rewrite <- (add_no (B "cmd") n (S n) m1) by (cbn; lia).
  apply (after_stops _ _ _ (S n) c t); [|exact Bc|exact Nc]. apply n_cmd_ok. unfold n_cmds.
  assert (S1 : nmatch n_bareCmd m0 n (byte_val x :: c :: t) = (NFail, m0))
    by (apply cannot; [reflexivity|]; destruct Lx as [[= <- _]|[[= <- _]|[[= <- _]|[[= <- _]|[[= <- _]|[]]]]]]; reflexivity).
  assert (S2 : nmatch n_paramCmd m0 n (byte_val x :: c :: t) = (NFail, m0))
    by (apply cannot; [reflexivity|]; destruct Lx as [[= <- _]|[[= <- _]|[[= <- _]|[[= <- _]|[[= <- _]|[]]]]]]; reflexivity).
  rewrite (nfirst_skip _ _ _ _ _ _ S1), (nfirst_skip _ _ _ _ _ _ S2). now apply nfirst_take.
Qed.
