(* Proofs for C144. *)
From Verif Require Import GoBase GoFacts NumFacts Utf8Facts RuneFacts EdModel EdPegModel EdPegSpec EdPegProofs EdErrModel EdErrSpec EdErrProofs
  EdTreeModel EdTreeSpec.
Local Open Scope nat_scope.

(* no character of the grammar is the end symbol *)
Fixpoint plain (e : nexp) : bool :=
  match e with
  | NChr c => N.ltb c endSymbol
  | NRange _ hi => N.ltb hi endSymbol
  | NDot | NAct _ => true
  | NSeq a b | NAlt a b => (plain a && plain b)%bool
  | NStar a | NOpt a | NNot a | NText a | NRule _ a => plain a
  end.
Lemma first_plain : plain n_first = true. Proof. vm_compute. reflexivity. Qed.

Lemma tree_add_ok : forall tree t i, tree <> [] -> i <= List.length tree ->
  exists tree', tree_add tree t i = Some tree' /\ tree' <> [] /\ S i <= List.length tree' /\ List.length tree <= List.length tree' /\
    firstn (S i) tree' = firstn i tree ++ [t].
Proof.
  intros tree t i Hn Hi. unfold tree_add.
  set (tr := if List.length tree <=? i then tree ++ repeat zero_token (List.length tree) else tree).
  assert (L : i < List.length tr /\ List.length tree <= List.length tr /\ firstn i tr = firstn i tree).
  { subst tr. destruct (Nat.leb_spec (List.length tree) i).
    - rewrite app_length, repeat_length. destruct tree as [|x tree]; [congruence|]. cbn [List.length] in *.
      split; [lia|]. split; [lia|]. rewrite firstn_app. replace (i - List.length (x :: tree)) with 0 by (cbn [List.length]; lia).
      cbn [firstn]. apply app_nil_r.
    - auto. }
  destruct L as (L1 & L2 & L3). clearbody tr. destruct (Nat.ltb_spec i (List.length tr)); [|lia].
  eexists. split; [reflexivity|].
  assert (LF : List.length (firstn i tr) = i) by (rewrite firstn_length; lia).
  split; [destruct (firstn i tr); discriminate|].
  assert (LL : List.length (firstn i tr ++ t :: skipn (S i) tr) = List.length tr).
  { rewrite app_length. cbn [List.length]. rewrite LF, skipn_length. lia. }
  rewrite LL. split; [lia|]. split; [lia|].
  rewrite firstn_app, LF. replace (S i - i) with 1 by lia.
  rewrite firstn_firstn. replace (Nat.min (S i) i) with i by lia. cbn [firstn]. now rewrite L3.
Qed.

Definition good (rs : list N) (s : machine) : Prop :=
  v_pos s <= List.length rs /\ v_idx s <= List.length (v_tree s) /\ v_tree s <> [].

(* what a run of an expression from [s] amounts to *)
Definition outcome_of (rs : list N) (e : nexp) (s : machine) (o : verdict) (s' : machine) : Prop :=
  v_max s' = snd (nmatch e (v_max s) (v_pos s) (skipn (v_pos s) rs)) /\
  match pmatch (bare e) (v_pos s) (skipn (v_pos s) rs) with
  | POk p r t =>
      o = VOk /\ v_pos s' = p /\ r = skipn p rs /\ good rs s' /\
      exists ks, derives rs e (v_pos s) (Some (p, ks)) /\ exec_tokens ks = t /\ v_idx s' = v_idx s + List.length ks /\
        firstn (v_idx s') (v_tree s') = firstn (v_idx s) (v_tree s) ++ ks
  | PFail =>
      o = VFail /\ derives rs e (v_pos s) None /\ v_idx s <= List.length (v_tree s') /\ v_tree s' <> [] /\
      firstn (v_idx s) (v_tree s') = firstn (v_idx s) (v_tree s)
  | PHang => o = VHang
  end.

Lemma skipn_nth : forall (rs : list N) i x, nth_error rs i = Some x -> skipn i rs = x :: skipn (S i) rs.
Proof. induction rs; destruct i; simpl; intros; try discriminate; [now inversion H|]. now apply IHrs. Qed.
Lemma skipn_none : forall (rs : list N) i, nth_error rs i = None -> skipn i rs = [].
Proof. intros. apply nth_error_None in H. now apply skipn_all2. Qed.

Section Machine.
  Variable rs : list N.
  Hypothesis real : Forall (fun r => (r < endSymbol)%N) rs.
  Let buffer := rs ++ [endSymbol].

  Lemma at_pos : forall i, i <= List.length rs ->
    nth_error buffer i = Some (match nth_error rs i with Some r => r | None => endSymbol end).
  Proof.
    intros i H. unfold buffer. destruct (nth_error rs i) eqn:E.
    - rewrite nth_error_app1 by (apply nth_error_Some; congruence). exact E.
    - apply nth_error_None in E. rewrite nth_error_app2 by lia. replace (i - List.length rs) with 0 by lia. reflexivity.
  Qed.
  Lemma rune_real : forall i r, nth_error rs i = Some r -> (r < endSymbol)%N.
  Proof. intros i r H. apply nth_error_In in H. rewrite Forall_forall in real. now apply real. Qed.

  (* the three single-rune expressions *)
  Lemma vtest_ok : forall want s, good rs s -> want endSymbol = false ->
    vtest buffer want s =
    match nth_error rs (v_pos s) with Some r => if want r then (VOk, move s) else (VFail, s) | None => (VFail, s) end.
  Proof.
    intros want s (G1&_&_) W. unfold vtest. rewrite at_pos by auto. destruct (nth_error rs (v_pos s)); [reflexivity|now rewrite W].
  Qed.
  Lemma good_move : forall s r, good rs s -> nth_error rs (v_pos s) = Some r -> good rs (move s).
  Proof.
    intros s r (G1&G2&G3) H. split; [|split; auto]. cbn [move v_pos].
    assert (v_pos s < List.length rs) by (apply nth_error_Some; congruence). lia.
  Qed.

  Definition fine (e : nexp) : Prop :=
    forall s, good rs s -> let '(o, s') := vmatch buffer e s in outcome_of rs e s o s'.

  Lemma good_restore : forall s s', good rs s -> v_idx s <= List.length (v_tree s') -> v_tree s' <> [] -> good rs (restore s' s).
  Proof. intros s s' (G1&_&_) H1 H2. repeat split; auto. Qed.

  Lemma vadd_ok : forall rule b s, good rs s -> exists s', vadd rule b s = (VOk, s') /\ good rs s' /\
    v_pos s' = v_pos s /\ v_idx s' = S (v_idx s) /\ v_max s' = add (rul3s rule) b (v_pos s) (v_max s) /\
    firstn (v_idx s') (v_tree s') = firstn (v_idx s) (v_tree s) ++ [tok rule b (v_pos s)].
  Proof.
    intros rule b s (G1&G2&G3). unfold vadd.
    destruct (tree_add_ok (v_tree s) (tok rule b (v_pos s)) (v_idx s) G3 G2) as (t&E&T1&T2&T3&T4).
    unfold tok in E. rewrite E. eexists. split; [reflexivity|]. cbn [v_pos v_idx v_tree v_max]. 
    split; [split; [|split]; auto|]. repeat split; auto.
  Qed.

  Lemma exec_app : forall a b, exec_tokens (a ++ b) = exec_tokens a ++ exec_tokens b.
  Proof. intros. apply flat_map_app. Qed.

  Lemma star_fine : forall e, fine e -> forall k s, good rs s ->
    v_max (snd (vstar (vmatch buffer e) k s)) = snd (nstar_loop (nmatch e) k (v_max s) (v_pos s) (skipn (v_pos s) rs)) /\
    match star_loop (pmatch (bare e)) k (v_pos s) (skipn (v_pos s) rs) with
    | POk p r t =>
        fst (vstar (vmatch buffer e) k s) = VOk /\ v_pos (snd (vstar (vmatch buffer e) k s)) = p /\ r = skipn p rs /\
        good rs (snd (vstar (vmatch buffer e) k s)) /\
        exists ks, derives rs (NStar e) (v_pos s) (Some (p, ks)) /\ exec_tokens ks = t /\
          v_idx (snd (vstar (vmatch buffer e) k s)) = v_idx s + List.length ks /\
          firstn (v_idx (snd (vstar (vmatch buffer e) k s))) (v_tree (snd (vstar (vmatch buffer e) k s))) =
            firstn (v_idx s) (v_tree s) ++ ks
    | PFail => False
    | PHang => fst (vstar (vmatch buffer e) k s) = VHang
    end.
  Proof.
    intros e He. induction k as [|k IH]; intros s G; [cbn; auto|].
    cbn [vstar nstar_loop star_loop]. specialize (He s G). destruct (vmatch buffer e s) as [o s1].
    destruct He as [Hm He]. pose proof (nmatch_same e (v_max s) (v_pos s) (skipn (v_pos s) rs)) as Sm.
    destruct (nmatch e (v_max s) (v_pos s) (skipn (v_pos s) rs)) as [x m]. cbn [fst snd] in Sm, Hm. subst m.
    destruct (pmatch (bare e) (v_pos s) (skipn (v_pos s) rs)) as [p r t| |]; cbn [same] in Sm; subst x.
    - destruct He as (-> & <- & -> & G1 & ks & D & X & I & F). destruct (v_pos s1 =? v_pos s); [cbn; auto|].
      specialize (IH s1 G1). destruct IH as [IHm IH]. split; [exact IHm|].
      destruct (star_loop (pmatch (bare e)) k (v_pos s1) (skipn (v_pos s1) rs)) as [p2 r2 t2| |]; auto.
      destruct IH as (Q1 & Q2 & Q3 & Q4 & ks2 & D2 & X2 & I2 & F2). repeat split; auto; try apply Q4.
      exists (ks ++ ks2). split; [now apply d_star with (j := v_pos s1)|]. split; [now rewrite exec_app, X, X2|].
      split; [rewrite I2, I, app_length; lia|]. rewrite F2, F. now rewrite app_assoc.
    - destruct He as (-> & D & L & N & F). cbn [fst snd]. split; [reflexivity|]. split; [reflexivity|]. split; [reflexivity|].
      split; [reflexivity|]. split; [now apply good_restore|]. exists []. split; [now apply d_star_end|]. split; [reflexivity|].
      cbn [restore v_idx v_tree List.length]. rewrite app_nil_r. split; [lia|]. exact F.
    - subst o. cbn. auto.
  Qed.

  Lemma machine_fine : forall e, plain e = true -> fine e.
  Proof.
    induction e; intros P s G; cbn [plain] in P; cbn [vmatch].
    - (* char *)
      rewrite vtest_ok by (auto; apply N.eqb_neq; apply N.ltb_lt in P; lia).
      unfold outcome_of. cbn [bare pmatch nmatch snd]. pose proof (good_move s) as GM.
      destruct (nth_error rs (v_pos s)) as [r|] eqn:E.
      + rewrite (skipn_nth _ _ _ E). destruct (N.eqb_spec r c).
        * subst. split; [reflexivity|]. repeat split; auto; try (apply (GM c); auto).
          exists []. repeat split; try (now constructor); cbn [move v_idx v_tree List.length]; rewrite ?app_nil_r; auto.
        * split; [reflexivity|]. destruct G as (G1&G2&G3). repeat split; auto. constructor. rewrite E. congruence.
      + rewrite (skipn_none _ _ E). split; [reflexivity|]. destruct G as (G1&G2&G3). repeat split; auto. constructor. rewrite E. discriminate.
    - (* range *)
      rewrite vtest_ok.
      2: auto. 2:{ apply andb_false_iff. right. apply N.leb_gt. now apply N.ltb_lt in P. }
      unfold outcome_of. cbn [bare pmatch nmatch snd]. pose proof (good_move s) as GM.
      destruct (nth_error rs (v_pos s)) as [r|] eqn:E.
      + rewrite (skipn_nth _ _ _ E). destruct (N.leb lo r && N.leb r hi)%bool eqn:W.
        * apply andb_prop in W as [W1 W2]. apply N.leb_le in W1, W2.
          split; [reflexivity|]. repeat split; auto; try (apply (GM r); auto).
          exists []. split; [now apply d_range with (c := r)|]. repeat split; cbn [move v_idx v_tree List.length]; rewrite ?app_nil_r; auto.
        * split; [reflexivity|]. destruct G as (G1&G2&G3). repeat split; auto. constructor. intros c Hc. rewrite E in Hc. inversion Hc; subst.
          apply andb_false_iff in W as [W|W]; apply N.leb_gt in W; lia.
      + rewrite (skipn_none _ _ E). split; [reflexivity|]. destruct G as (G1&G2&G3). repeat split; auto. constructor. rewrite E. discriminate.
    - (* dot *)
      rewrite vtest_ok by (auto; now rewrite N.eqb_refl).
      unfold outcome_of. cbn [bare pmatch nmatch snd]. pose proof (good_move s) as GM.
      destruct (nth_error rs (v_pos s)) as [r|] eqn:E.
      + rewrite (skipn_nth _ _ _ E). pose proof (rune_real _ _ E). replace (N.eqb r endSymbol) with false by (symmetry; apply N.eqb_neq; lia).
        cbn [negb]. split; [reflexivity|]. repeat split; auto; try (apply (GM r); auto).
        exists []. split; [constructor; apply nth_error_Some; congruence|]. repeat split; cbn [move v_idx v_tree List.length]; rewrite ?app_nil_r; auto.
      + rewrite (skipn_none _ _ E). split; [reflexivity|]. destruct G as (G1&G2&G3). repeat split; auto. constructor. now apply nth_error_None.
    - (* seq *)
      apply andb_prop in P as [P1 P2]. specialize (IHe1 P1 s G). unfold outcome_of in *. cbn [bare pmatch nmatch].
      destruct (vmatch buffer e1 s) as [o s1]. destruct IHe1 as [Hm H1].
      pose proof (nmatch_same e1 (v_max s) (v_pos s) (skipn (v_pos s) rs)) as Sm.
      destruct (nmatch e1 (v_max s) (v_pos s) (skipn (v_pos s) rs)) as [x m]. cbn [fst snd] in Sm, Hm. subst m.
      destruct (pmatch (bare e1) (v_pos s) (skipn (v_pos s) rs)) as [p r t| |]; cbn [same] in Sm; subst x.
      + destruct H1 as (-> & <- & -> & G1 & ks & D & X & I & F). specialize (IHe2 P2 s1 G1). unfold outcome_of in IHe2.
        destruct (vmatch buffer e2 s1) as [o2 s2]. destruct IHe2 as [Hm2 H2]. split; [exact Hm2|].
        destruct (pmatch (bare e2) (v_pos s1) (skipn (v_pos s1) rs)) as [p2 r2 t2| |].
        * destruct H2 as (-> & <- & -> & G2 & ks2 & D2 & X2 & I2 & F2). repeat split; auto; try apply G2.
          exists (ks ++ ks2). split; [now apply d_seq with (j := v_pos s1)|]. split; [now rewrite exec_app, X, X2|].
          split; [rewrite I2, I, app_length; lia|]. rewrite F2, F. now rewrite app_assoc.
        * destruct H2 as (-> & D2 & L & N & F2). split; [reflexivity|]. split; [now apply d_seq_not2 with (j := v_pos s1) (t := ks)|].
          split; [lia|]. split; [exact N|].
          assert (Q : firstn (v_idx s) (firstn (v_idx s1) (v_tree s2)) = firstn (v_idx s) (firstn (v_idx s1) (v_tree s1))) by now rewrite F2.
          rewrite firstn_firstn in Q. replace (Nat.min (v_idx s) (v_idx s1)) with (v_idx s) in Q by lia. rewrite Q, F.
          destruct G as (_&G&_). rewrite firstn_app, firstn_length. replace (v_idx s - Nat.min (v_idx s) (List.length (v_tree s))) with 0 by lia.
          cbn [firstn]. rewrite app_nil_r, firstn_firstn. f_equal. lia.
        * exact H2.
      + destruct H1 as (-> & D & L & N & F). repeat split; auto. now apply d_seq_not.
      + subst o. split; reflexivity.
    - (* alt *)
      apply andb_prop in P as [P1 P2]. specialize (IHe1 P1 s G). unfold outcome_of in *. cbn [bare pmatch nmatch].
      destruct (vmatch buffer e1 s) as [o s1]. destruct IHe1 as [Hm H1].
      pose proof (nmatch_same e1 (v_max s) (v_pos s) (skipn (v_pos s) rs)) as Sm.
      destruct (nmatch e1 (v_max s) (v_pos s) (skipn (v_pos s) rs)) as [x m]. cbn [fst snd] in Sm, Hm. subst m.
      destruct (pmatch (bare e1) (v_pos s) (skipn (v_pos s) rs)) as [p r t| |]; cbn [same] in Sm; subst x.
      + destruct H1 as (-> & <- & -> & G1 & ks & D & X & I & F). split; [reflexivity|]. repeat split; auto; try apply G1.
        exists ks. repeat split; auto. now apply d_alt.
      + destruct H1 as (-> & D & L & N & F). specialize (IHe2 P2 _ (good_restore s s1 G L N)). unfold outcome_of in IHe2.
        destruct (vmatch buffer e2 (restore s1 s)) as [o2 s2]. cbn [restore v_pos v_idx v_tree v_max] in IHe2.
        destruct IHe2 as [Hm2 H2]. split; [exact Hm2|].
        destruct (pmatch (bare e2) (v_pos s) (skipn (v_pos s) rs)) as [p2 r2 t2| |]; auto.
        * destruct H2 as (-> & <- & -> & G2 & ks2 & D2 & X2 & I2 & F2). repeat split; auto; try apply G2.
          exists ks2. split; [now apply d_alt2|]. repeat split; auto. now rewrite F2, F.
        * destruct H2 as (-> & D2 & L2 & N2 & F2). repeat split; auto. now apply d_alt2. now rewrite F2.
      + subst o. split; reflexivity.
    - (* star *)
      pose proof (star_fine e (IHe P) (List.length buffer - v_pos s) s G) as H. unfold outcome_of. cbn [bare pmatch nmatch].
      replace (S (List.length (skipn (v_pos s) rs))) with (List.length buffer - v_pos s)
        by (unfold buffer; rewrite app_length, skipn_length; cbn [List.length]; destruct G; lia).
      destruct (vstar (vmatch buffer e) (List.length buffer - v_pos s) s) as [o s1]. cbn [fst snd] in H. destruct H as [Hm H].
      split; [exact Hm|]. destruct (star_loop _ _ _ _); [exact H|contradiction|exact H].
    - (* opt *)
      specialize (IHe P s G). unfold outcome_of in *. cbn [bare pmatch nmatch].
      destruct (vmatch buffer e s) as [o s1]. destruct IHe as [Hm H1].
      pose proof (nmatch_same e (v_max s) (v_pos s) (skipn (v_pos s) rs)) as Sm.
      destruct (nmatch e (v_max s) (v_pos s) (skipn (v_pos s) rs)) as [x m]. cbn [fst snd] in Sm, Hm. subst m.
      destruct (pmatch (bare e) (v_pos s) (skipn (v_pos s) rs)) as [p r t| |]; cbn [same] in Sm; subst x.
      + destruct H1 as (-> & <- & -> & G1 & ks & D & X & I & F). split; [reflexivity|]. repeat split; auto; try apply G1.
        exists ks. repeat split; auto. now apply d_opt.
      + destruct H1 as (-> & D & L & N & F). split; [reflexivity|]. split; [reflexivity|]. split; [reflexivity|]. split; [reflexivity|].
        split; [now apply good_restore|]. exists []. split; [now apply d_opt_not|]. split; [reflexivity|].
        cbn [restore v_idx v_tree List.length]. rewrite app_nil_r. split; [lia|]. exact F.
      + subst o. split; reflexivity.
    - (* not *)
      specialize (IHe P s G). unfold outcome_of in *. cbn [bare pmatch nmatch].
      destruct (vmatch buffer e s) as [o s1]. destruct IHe as [Hm H1].
      pose proof (nmatch_same e (v_max s) (v_pos s) (skipn (v_pos s) rs)) as Sm.
      destruct (nmatch e (v_max s) (v_pos s) (skipn (v_pos s) rs)) as [x m]. cbn [fst snd] in Sm, Hm. subst m.
      destruct (pmatch (bare e) (v_pos s) (skipn (v_pos s) rs)) as [p r t| |]; cbn [same] in Sm; subst x.
      + destruct H1 as (-> & <- & -> & G1 & ks & D & X & I & F). split; [reflexivity|]. split; [reflexivity|].
        split; [now apply d_not_not with (x := (v_pos s1, ks))|]. destruct G1 as (_&G1&G2). split; [lia|]. split; [exact G2|].
        assert (Q : firstn (v_idx s) (firstn (v_idx s1) (v_tree s1)) = firstn (v_idx s) (firstn (v_idx s) (v_tree s) ++ ks)) by now rewrite F.
        rewrite firstn_firstn in Q. replace (Nat.min (v_idx s) (v_idx s1)) with (v_idx s) in Q by lia. rewrite Q.
        destruct G as (_&G&_). rewrite firstn_app, firstn_length. replace (v_idx s - Nat.min (v_idx s) (List.length (v_tree s))) with 0 by lia.
        cbn [firstn]. rewrite app_nil_r, firstn_firstn. f_equal. lia.
      + destruct H1 as (-> & D & L & N & F). split; [reflexivity|]. split; [reflexivity|]. split; [reflexivity|]. split; [reflexivity|].
        split; [now apply good_restore|]. exists []. split; [now apply d_not|]. split; [reflexivity|].
        cbn [restore v_idx v_tree List.length]. rewrite app_nil_r. split; [lia|]. exact F.
      + subst o. split; reflexivity.
    - (* text *)
      specialize (IHe P s G). unfold outcome_of in *. cbn [bare pmatch nmatch].
      destruct (vmatch buffer e s) as [o s1]. destruct IHe as [Hm H1].
      pose proof (nmatch_same e (v_max s) (v_pos s) (skipn (v_pos s) rs)) as Sm.
      destruct (nmatch e (v_max s) (v_pos s) (skipn (v_pos s) rs)) as [x m]. cbn [fst snd] in Sm, Hm. subst m.
      destruct (pmatch (bare e) (v_pos s) (skipn (v_pos s) rs)) as [p r t| |]; cbn [same] in Sm; subst x.
      + destruct H1 as (-> & <- & -> & G1 & ks & D & X & I & F).
        destruct (vadd_ok GText (v_pos s) s1 G1) as (s2 & -> & G2 & V1 & V2 & V3 & V4).
        split; [exact V3|]. rewrite V1. repeat split; auto; try apply G2.
        exists (ks ++ [tok GText (v_pos s) (v_pos s1)]). split; [now apply d_text|]. split; [now rewrite exec_app, X|].
        split; [rewrite V2, I, app_length; cbn [List.length]; lia|]. rewrite V4, F. now rewrite app_assoc.
      + destruct H1 as (-> & D & L & N & F). repeat split; auto. now apply d_text_not.
      + subst o. split; reflexivity.
    - (* action *)
      destruct (vadd_ok (GAct n) (v_pos s) s G) as (s2 & -> & G2 & V1 & V2 & V3 & V4). unfold outcome_of. cbn [bare pmatch nmatch snd].
      split; [exact V3|]. rewrite V1. repeat split; auto; try apply G2.
      exists [tok (GAct n) (v_pos s) (v_pos s)]. split; [constructor|]. split; [reflexivity|]. split; [rewrite V2; cbn [List.length]; lia|exact V4].
    - (* rule *)
      specialize (IHe P s G). unfold outcome_of in *. cbn [bare pmatch nmatch].
      destruct (vmatch buffer e s) as [o s1]. destruct IHe as [Hm H1].
      pose proof (nmatch_same e (v_max s) (v_pos s) (skipn (v_pos s) rs)) as Sm.
      destruct (nmatch e (v_max s) (v_pos s) (skipn (v_pos s) rs)) as [x m]. cbn [fst snd] in Sm, Hm. subst m.
      destruct (pmatch (bare e) (v_pos s) (skipn (v_pos s) rs)) as [p r t| |]; cbn [same] in Sm; subst x.
      + destruct H1 as (-> & <- & -> & G1 & ks & D & X & I & F).
        destruct (vadd_ok (GRule name) (v_pos s) s1 G1) as (s2 & -> & G2 & V1 & V2 & V3 & V4).
        split; [exact V3|]. rewrite V1. repeat split; auto; try apply G2.
        exists (ks ++ [tok (GRule name) (v_pos s) (v_pos s1)]). split; [now apply d_rule|].
        split; [rewrite exec_app, X; cbn; apply app_nil_r|].
        split; [rewrite V2, I, app_length; cbn [List.length]; lia|]. rewrite V4, F. now rewrite app_assoc.
      + destruct H1 as (-> & D & L & N & F). split; [reflexivity|]. split; [reflexivity|]. split; [now apply d_rule_not|].
        cbn [restore v_tree]. auto.
      + subst o. split; reflexivity.
  Qed.
End Machine.

(* the semantics gives one answer *)
Lemma derives_functional : forall rs e i x, derives rs e i x -> forall y, derives rs e i y -> x = y.
Proof.
  intros rs e i x H. induction H; intros y Hy; inversion Hy; subst; auto; try congruence;
  repeat match goal with
  | IH : forall y, derives rs ?a ?i y -> _ = y, Q : derives rs ?a ?i _ |- _ => apply IH in Q; try discriminate Q; inversion Q; subst; clear Q
  end; try congruence; try lia.
  all: exfalso; match goal with N : forall c, nth_error _ _ = Some c -> ~ _, E : nth_error _ _ = Some _ |- _ => apply (N _ E); assumption end.
Qed.

Lemma runes_real : forall b, Forall (fun r => (r < endSymbol)%N) (runes_of b).
Proof.
  assert (D : forall b, (fst (decode_rune b) < endSymbol)%N).
  { intro b. unfold decode_rune, endSymbol, rune_error, in_range, cont.
    assert (X : forall c, (byte_val c < 256)%N) by (intros [[] [] [] [] [] [] [] []]; vm_compute; reflexivity).
    destruct b as [|c0 r]; [cbn; lia|]. pose proof (X c0). cbv zeta.
    destruct (N.ltb_spec (byte_val c0) 128); [cbn [fst]; lia|].
    repeat match goal with
    | |- context [match ?l with [] => _ | _ :: _ => _ end] => is_var l; let c := fresh "c" in destruct l as [|c ?]; [|pose proof (X c)]
    | |- context [if ?b then _ else _] => let E := fresh "E" in destruct b eqn:E
    | |- _ => cbn [fst]
    end; try lia;
    repeat match goal with H : (_ && _)%bool = true |- _ => apply andb_prop in H; destruct H end;
    repeat match goal with H : context [if ?b then _ else _] |- _ => let E := fresh "E" in destruct b eqn:E end;
    repeat match goal with H : N.leb _ _ = true |- _ => apply N.leb_le in H end;
    repeat match goal with H : N.eqb _ _ = _ |- _ => first [apply N.eqb_eq in H | apply N.eqb_neq in H] end; lia. }
  intro b. unfold runes_of, range_runes. generalize (List.length b) at 1. intro f. generalize 0. revert b.
  induction f as [|f IH]; intros b i; [constructor|]. destruct b as [|c b]; [constructor|].
  cbn [range_runes_from]. specialize (D (c :: b)). destruct (decode_rune (c :: b)) as [r w]. cbn [map snd]. constructor; [exact D|apply IH].
Qed.

(* the machine on the whole grammar *)
Lemma parse_on_ok : forall tree buf, tree <> [] ->
  snd (parse_on tree buf) <> [] /\
  ((exists toks j, fst (parse_on tree buf) = Accepted toks /\ derives (runes_of buf) n_first 0 (Some (j, toks)) /\
      Parse buf = Val (Some (exec_tokens toks))) \/
   (exists m, fst (parse_on tree buf) = Rejected m /\ derives (runes_of buf) n_first 0 None /\
      Parse buf = Val None /\ parse_token buf = Val (Some m))).
Proof.
  intros tree buf Ht.
  pose proof (machine_fine (runes_of buf) (runes_real buf) n_first first_plain
    {| v_pos := 0; v_idx := 0; v_tree := tree; v_max := no_token |}) as H.
  assert (G : good (runes_of buf) {| v_pos := 0; v_idx := 0; v_tree := tree; v_max := no_token |}) by (repeat split; cbn; auto; lia).
  specialize (H G). unfold parse_on, peg_buffer.
  destruct (vmatch (runes_of buf ++ [endSymbol]) n_first _) as [o s]. destruct H as [Hm H]. cbn [v_pos v_idx v_tree v_max skipn] in *.
  pose proof (nmatch_same n_first no_token 0 (runes_of buf)) as Sm.
  unfold Parse, Parse_with, parse_token. rewrite <- same_grammar.
  destruct (nmatch n_first no_token 0 (runes_of buf)) as [x m]. cbn [fst snd] in Sm, Hm. subst m.
  destruct (pmatch (bare n_first) 0 (runes_of buf)) as [p r t| |] eqn:E; cbn [same] in Sm; subst x.
  - destruct H as (-> & P & _ & (_&_&G3) & ks & D & X & I & F). cbn [fst snd]. split; [exact G3|]. left.
    exists (firstn (v_idx s) (v_tree s)), p. cbn [firstn app] in F. rewrite F. split; [reflexivity|]. split; [exact D|now rewrite X].
  - destruct H as (-> & D & _ & N & _). cbn [fst snd]. split; [exact N|]. right. exists (v_max s). auto.
  - exfalso. rewrite same_grammar in E. now apply sound_no_hang in E.
Qed.

(* ---- the tree ---- *)
Lemma postorder_eq : forall t ups, postorder (Node t ups) = flat_map postorder ups ++ [t].
Proof. reflexivity. Qed.

Definition before (i : nat) (n : node) : Prop := k_begin (n_tok n) < k_end (n_tok n) /\ k_end (n_tok n) <= i.

Lemma in_order_le : forall l i j, (forall u, In u l -> nested u) -> in_order i j l -> i <= j.
Proof.
  induction l as [|n l IH]; intros i j N H; [exact H|]. destruct H as [H1 H2]. apply IH in H2; [|intros; apply N; now right].
  assert (X : nested n) by (apply N; now left). inversion X; subst. cbn [n_tok] in *. lia.
Qed.
Lemma in_order_app : forall l l' i j k, in_order i j l -> in_order j k l' -> (forall u, In u l' -> nested u) -> in_order i k (l ++ l').
Proof.
  induction l as [|n l IH]; intros l' i j k H H' N; cbn [app].
  - cbn [in_order] in H. destruct l' as [|m l']; cbn [in_order] in *; [lia|]. destruct H'. split; [lia|auto].
  - destruct H as [H1 H2]. split; [exact H1|]. eapply IH; eauto.
Qed.
Lemma in_order_before : forall l i j, in_order i j l -> (forall u, In u l -> nested u) -> forall u, In u l -> before j u.
Proof.
  induction l as [|n l IH]; intros i j H N u U; [contradiction|]. destruct H as [H1 H2].
  assert (N' : forall u, In u l -> nested u) by (intros; apply N; now right).
  destruct U as [->|U]; [|now apply (IH _ _ H2 N')].
  assert (X : nested u) by (apply N; now left). inversion X; subst. cbn [n_tok] in *. split; cbn [n_tok]; [lia|]. now apply in_order_le in H2.
Qed.

Lemma absorb_all : forall t l st ups, Forall (fun n => k_begin t <= k_begin (n_tok n) /\ k_end (n_tok n) <= k_end t) l ->
  Forall (fun n => k_begin (n_tok n) < k_begin t) st -> absorb t (l ++ st) ups = (st, rev l ++ ups).
Proof.
  induction l as [|n l IH]; intros st ups H Hs.
  - cbn [app rev]. destruct st as [|m st]; [reflexivity|]. cbn [absorb]. inversion Hs; subst.
    replace (k_begin t <=? k_begin (n_tok m)) with false by (symmetry; apply Nat.leb_gt; lia). reflexivity.
  - inversion H; subst. destruct H2. cbn [app absorb].
    replace (k_begin t <=? k_begin (n_tok n)) with true by (symmetry; apply Nat.leb_le; lia).
    replace (k_end (n_tok n) <=? k_end t) with true by (symmetry; apply Nat.leb_le; lia). cbn [andb].
    rewrite IH by auto. cbn [rev]. now rewrite <- app_assoc.
Qed.

Lemma ast_app : forall a b st, ast_loop (a ++ b) st = ast_loop b (ast_loop a st).
Proof.
  induction a as [|t a IH]; intros b st; [reflexivity|]. cbn [app ast_loop]. destruct (k_begin t =? k_end t); [apply IH|].
  destruct (absorb t st []). apply IH.
Qed.

Definition forest (i j : nat) (ks : list token32) : Prop :=
  i <= j /\ forall st, Forall (before i) st -> exists f, ast_loop ks st = rev f ++ st /\ in_order i j f /\
    (forall u, In u f -> nested u) /\ flat_map postorder f = filter covers_text ks.

Lemma forest_nil : forall i, forest i i [].
Proof. intro i. split; [lia|]. intros st _. exists []. split; [reflexivity|]. split; [cbn; lia|]. split; [intros u []|reflexivity]. Qed.
Lemma forest_app : forall i j k a b, forest i j a -> forest j k b -> forest i k (a ++ b).
Proof.
  intros i j k a b (L1&H1) (L2&H2). split; [lia|]. intros st S0. destruct (H1 st S0) as (f&E1&O1&N1&P1).
  destruct (H2 (rev f ++ st)) as (g&E2&O2&N2&P2).
  { apply Forall_app. split.
    - apply Forall_forall. intros u U. apply in_rev in U. now apply (in_order_before f i j).
    - eapply Forall_impl; [|exact S0]. intros n (B1&B2). split; [exact B1|lia]. }
  exists (f ++ g). rewrite ast_app, E1, E2, rev_app_distr, app_assoc. split; [reflexivity|].
  split; [eapply in_order_app; eauto|]. split; [intros u U; apply in_app_or in U as [U|U]; auto|].
  now rewrite flat_map_app, filter_app, P1, P2.
Qed.
Lemma forest_wrap : forall i j ks r, forest i j ks -> forest i j (ks ++ [tok r i j]).
Proof.
  intros i j ks r (L&H). split; [exact L|]. intros st S0. destruct (H st S0) as (f&E&O&N&P).
  rewrite ast_app, E, filter_app.
  assert (C : filter covers_text [tok r i j] = if i =? j then [] else [tok r i j]) by (cbn; unfold covers_text; cbn; now destruct (i =? j)).
  rewrite C. cbn [ast_loop tok k_begin k_end]. destruct (Nat.eqb_spec i j) as [->|Hij].
  - exists f. split; [reflexivity|]. split; [exact O|]. split; [exact N|]. now rewrite P, app_nil_r.
  - fold (tok r i j). rewrite absorb_all.
    + rewrite rev_involutive, app_nil_r. exists [Node (tok r i j) f]. split; [reflexivity|]. split; [cbn; lia|].
      split; [|cbn [flat_map]; rewrite app_nil_r, postorder_eq, P; reflexivity].
      intros u [<-|[]]. constructor; cbn [tok k_begin k_end]; [lia|exact O|exact N].
    + apply Forall_forall. intros u U. apply in_rev in U. cbn [tok k_begin k_end]. split.
      * clear -O N U. revert i O. induction f as [|n f IH]; intros i O; [contradiction|]. destruct O as [O1 O2].
        destruct U as [->|U]; [exact O1|]. assert (X : nested n) by (apply N; now left). inversion X; subst. cbn [n_tok] in *.
        assert (k_end t <= k_begin (n_tok u)); [|lia]. apply IH; auto. intros; apply N; now right.
      * now apply (in_order_before f i j).
    + eapply Forall_impl; [|exact S0]. intros n (B1&B2). cbn [tok k_begin]. lia.
Qed.
Lemma forest_act : forall i n, forest i i [tok (GAct n) i i].
Proof. intros. apply (forest_wrap i i []). apply forest_nil. Qed.

Lemma derives_forest : forall rs e i x, derives rs e i x -> match x with Some (j, ks) => forest i j ks | None => True end.
Proof.
  intros rs e i x H. induction H; auto; try (now apply forest_nil); try (eapply forest_app; eauto; fail);
    try (apply forest_wrap; assumption); try apply forest_act.
  - split; [lia|]. intros st _. exists []. split; [reflexivity|]. split; [cbn; lia|]. split; [intros u []|reflexivity].
  - split; [lia|]. intros st _. exists []. split; [reflexivity|]. split; [cbn; lia|]. split; [intros u []|reflexivity].
  - split; [lia|]. intros st _. exists []. split; [reflexivity|]. split; [cbn; lia|]. split; [intros u []|reflexivity].
Qed.

Lemma derives_bound : forall rs e i x, derives rs e i x -> i <= List.length rs -> match x with Some (j, _) => j <= List.length rs | None => True end.
Proof.
  intros rs e i x H. induction H; intros L; auto; try lia;
    try (assert (i < List.length rs) by (apply nth_error_Some; congruence); lia);
    try (apply IHderives2, IHderives1, L).
  - now apply IHderives. - now apply IHderives2. - now apply IHderives.
Qed.

(* a match of the whole grammar reaches the end of the input *)
Lemma first_end : forall rs j ks, derives rs n_first 0 (Some (j, ks)) -> j = List.length rs /\ exists ks', ks = ks' ++ [tok (GRule (B "first")) 0 j].
Proof.
  intros rs j ks H. unfold n_first in H. inversion H as [| | | | | | | | | | | | | | | | | | | |? ? ? ? ? H1|]; subst.
  split; [|eexists; reflexivity].
  pose proof (derives_bound _ _ _ _ H (Nat.le_0_l _)) as L. cbn in L.
  inversion H1 as [| | | | | |? ? ? j1 ? ? ? A Bq| | | | | | | | | | | | | | |]; subst.
  inversion Bq as [| | | | | |? ? ? j2 ? ? ? C D| | | | | | | | | | | | | | |]; subst.
  inversion D; subst. inversion C as [| | | | | | | | | | | | | | |? ? Q| | | | | |]; subst. inversion Q; subst. lia.
Qed.

Lemma ast_first : forall rs j ks, derives rs n_first 0 (Some (j, ks)) ->
  (rs = [] -> AST ks = None) /\
  (rs <> [] -> exists root, AST ks = Some root /\ n_tok root = tok (GRule (B "first")) 0 (List.length rs) /\ nested root /\
     postorder root = filter covers_text ks).
Proof.
  intros rs j ks H. destruct (first_end _ _ _ H) as (-> & ks' & Ek). pose proof (derives_forest _ _ _ _ H) as (_ & F).
  destruct (F [] (Forall_nil _)) as (f & E & O & N & P). unfold AST. rewrite E, app_nil_r.
  split.
  - intros ->. cbn [List.length] in *. destruct f as [|n f]; [reflexivity|]. exfalso. 
    destruct O as [O1 O2]. assert (X : nested n) by (apply N; now left). inversion X; subst. cbn [n_tok] in *.
    apply in_order_le in O2; [lia|]. intros; apply N; now right.
  - intros Hrs. assert (L : List.length rs <> 0) by (destruct rs; [congruence|discriminate]).
    assert (LT : filter covers_text ks = filter covers_text ks' ++ [tok (GRule (B "first")) 0 (List.length rs)]).
    { rewrite Ek, filter_app. f_equal. unfold filter, covers_text, tok. cbn [k_begin k_end].
      destruct (Nat.eqb_spec 0 (List.length rs)); [congruence|reflexivity]. }
    destruct f as [|n f] using rev_ind; [cbn in P; rewrite LT in P; now apply app_cons_not_nil in P|]. clear IHf.
    assert (NT : n_tok n = tok (GRule (B "first")) 0 (List.length rs)).
    { rewrite flat_map_app in P. cbn [flat_map] in P. rewrite app_nil_r in P. destruct n as [t ups]. rewrite postorder_eq, app_assoc, LT in P.
      apply app_inj_tail in P as [_ P]. exact P. }
    rewrite rev_app_distr. cbn [rev app]. exists n.
    assert (FN : f = []).
    { destruct f as [|m f]; [reflexivity|]. exfalso. cbn [app] in *.
      assert (X : forall l i, in_order i (List.length rs) (l ++ [n]) -> (forall u, In u (l ++ [n]) -> nested u) -> l <> [] -> False).
      { clear -NT. induction l as [|a l IH]; intros i O N Z0; [congruence|]. cbn [app] in O. destruct O as [O1 O2].
        assert (X : nested a) by (apply N; now left). inversion X; subst. cbn [n_tok] in *. destruct l as [|b l].
        - cbn [app in_order] in O2. rewrite NT in O2. cbn [tok k_begin] in O2. lia.
        - eapply IH; [exact O2|intros; apply N; now right|discriminate]. }
      apply (X (m :: f) 0 O N). discriminate. }
    subst f. cbn [app flat_map] in P. rewrite app_nil_r in P. repeat split; auto. apply N. now left.
Qed.

Lemma print_ok : forall quote rs n depth, nested n -> k_end (n_tok n) <= List.length rs ->
  print_node quote rs depth n = Some (flat_map (tree_line quote rs) (preorder depth n)).
Proof.
  intros quote rs. fix IH 1. intros [t ups] depth H L. cbn [n_tok] in L.
  assert (A : (forall u, In u ups -> nested u) /\ k_begin t < k_end t /\ in_order (k_begin t) (k_end t) ups) by (inversion H; subst; auto).
  clear H. destruct A as (N & Lt & O).
  assert (M : forall l i, (forall u, In u l -> nested u) -> in_order i (k_end t) l ->
    (fix all (l : list node) : option bytes :=
       match l with
       | [] => Some []
       | u :: r => match print_node quote rs (S depth) u, all r with Some a, Some b => Some (a ++ b) | _, _ => None end
       end) l = Some (flat_map (tree_line quote rs) (flat_map (preorder (S depth)) l)) ).
  { clear -IH L. fix IHl 1. intros [|u l] i N O; [reflexivity|].
    destruct O as [O1 O2]. rewrite (IHl l (k_end (n_tok u))).
    - rewrite (IH u (S depth)).
      + cbn [flat_map]. now rewrite flat_map_app.
      + apply N. now left.
      + assert (k_end (n_tok u) <= k_end t); [|lia]. eapply in_order_le; [|exact O2]. intros; apply N; now right.
    - intros; apply N; now right.
    - exact O2. }
  cbn [print_node preorder flat_map tree_line].
  replace (k_begin t <=? k_end t) with true by (symmetry; apply Nat.leb_le; lia).
  replace (k_end t <=? List.length rs) with true by (symmetry; apply Nat.leb_le; lia). cbn [andb].
  rewrite (M ups (k_begin t) N O). unfold slice. now rewrite <- !app_assoc.
Qed.
