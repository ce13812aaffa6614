(* Proofs for C157. *)
From Coq Require Import Permutation.
From Verif Require Import GoBase GoFacts Utf8Facts FlagModel FlagSpec FlagProofs FlagOrderSpec.

Lemma wf_split : forall p gs, Forall (well_formed p) gs -> Forall (group_ok p) gs /\ Forall ascii_value gs.
Proof. intros p gs H. split; (eapply Forall_impl; [|exact H]); intros g [? ?]; auto. Qed.

Lemma words_from : forall p tail gs ws f0, Forall (group_ok p) gs -> Forall ascii_value gs ->
  (length (flat_map group_args gs ++ tail) <= f0)%nat ->
  parse_from f0 p (flat_map group_args gs ++ tail) ws = parse_from (length tail) p tail (ws ++ flat_map group_writes gs).
Proof.
  induction gs as [|g gs IH]; intros ws f0 G A L.
  - cbn [flat_map app] in *. rewrite List.app_nil_r. apply parse_fuel; auto.
  - inversion G as [|? ? Hg Hgs]; subst. inversion A as [|? ? Ha Has]; subst.
    cbn [flat_map] in *. rewrite <- List.app_assoc in *. unfold group_args at 1. unfold group_args at 1 in L.
    cbn [app length] in *. destruct f0 as [|f0]; [lia|]. rewrite parse_from_step.
    destruct (group_not_end p g Hg) as [-> ->].
    change (skipn 1 (B "-" ++ string_of_runes (names g))) with (string_of_runes (names g)).
    rewrite group_bundle by auto. rewrite List.app_length in L.
    rewrite IH by (auto; lia). now rewrite List.app_assoc.
Qed.

Lemma composition : forall p gs tail os, Forall (well_formed p) gs ->
  parse p (Some (words gs ++ tail)) os =
  (flat_map group_writes gs ++ fst (parse p (Some tail) os), snd (parse p (Some tail) os)).
Proof.
  intros p gs tail os H. destruct (wf_split p gs H) as [G A]. unfold parse, words. rewrite words_from by auto.
  cbn [app]. rewrite <- (List.app_nil_r (flat_map group_writes gs)) at 1. apply parse_prefix.
Qed.

(* ---- what variables hold ---- *)
Lemma held_from : forall a ws o, fold_left (fun o w => if Nat.eqb (target w) a then Some w else o) ws o =
  match held a ws with Some w => Some w | None => o end.
Proof.
  unfold held. intros a ws. induction ws as [|w ws IH]; intros o; [reflexivity|]. cbn [fold_left].
  rewrite (IH (if (target w =? a)%nat then Some w else o)), (IH (if (target w =? a)%nat then Some w else None)).
  destruct (fold_left _ ws None); [reflexivity|]. now destruct (target w =? a)%nat.
Qed.

Lemma held_app : forall a x y, held a (x ++ y) = match held a y with Some w => Some w | None => held a x end.
Proof. intros. unfold held at 1. rewrite fold_left_app. rewrite held_from. reflexivity. Qed.

Lemma held_some : forall a ws w, held a ws = Some w -> In w ws /\ target w = a.
Proof.
  intros a ws. induction ws as [|x ws IH] using rev_ind; intros w H; [discriminate|]. rewrite held_app in H.
  cbn in H. destruct (Nat.eqb_spec (target x) a) as [E|E].
  - injection H as <-. split; [apply in_or_app; right; now left|assumption].
  - destruct (IH w H). split; [apply in_or_app; now left|assumption].
Qed.

Lemma held_none : forall a ws, held a ws = None -> forall w, In w ws -> target w <> a.
Proof.
  intros a ws. induction ws as [|x ws IH] using rev_ind; intros H w I; [easy|]. rewrite held_app in H.
  cbn in H. destruct (Nat.eqb_spec (target x) a) as [E|E]; [discriminate|].
  apply in_app_or in I as [I|[<-|[]]]; [now apply (IH H)|assumption].
Qed.

Lemma held_swap : forall a x y, (forall w w', In w x -> In w' y -> target w <> target w') -> held a (x ++ y) = held a (y ++ x).
Proof.
  intros a x y H. rewrite !held_app. destruct (held a x) as [w|] eqn:E, (held a y) as [w'|] eqn:E'; try reflexivity.
  apply held_some in E as [I T], E' as [I' T']. exfalso. apply (H w w'); congruence.
Qed.

Lemma held_same : forall a ws ws', (forall w, In w ws <-> In w ws') ->
  (forall w w', In w ws -> In w' ws -> target w = target w' -> w = w') -> held a ws = held a ws'.
Proof.
  intros a ws ws' E C. destruct (held a ws) as [w|] eqn:H, (held a ws') as [w'|] eqn:H'.
  - apply held_some in H as [I T], H' as [I' T']. f_equal. apply C; [auto|now apply E|congruence].
  - apply held_some in H as [I T]. apply E in I. now destruct (held_none _ _ H' _ I).
  - apply held_some in H' as [I T]. apply E in I. now destruct (held_none _ _ H _ I).
  - reflexivity.
Qed.

Lemma exchanged : forall p gs g h hs tail os, Forall (well_formed p) (gs ++ g :: h :: hs) -> apart g h ->
  same_effect (parse p (Some (words (gs ++ g :: h :: hs) ++ tail)) os)
              (parse p (Some (words (gs ++ h :: g :: hs) ++ tail)) os).
Proof.
  intros p gs g h hs tail os H A.
  assert (H' : Forall (well_formed p) (gs ++ h :: g :: hs)).
  { rewrite Forall_forall in *. intros x I. apply H. rewrite in_app_iff in *. cbn in *. tauto. }
  rewrite !composition by assumption. split; [reflexivity|]. intros a. cbn [fst]. rewrite !held_app.
  destruct (held a (fst (parse p (Some tail) os))); [reflexivity|].
  rewrite !flat_map_app, !held_app. cbn [flat_map]. rewrite !List.app_assoc.
  rewrite (held_app a (group_writes g ++ group_writes h)), (held_app a (group_writes h ++ group_writes g)).
  destruct (held a (flat_map group_writes hs)); [reflexivity|]. now rewrite (held_swap a _ _ A).
Qed.

Lemma permuted : forall p gs gs' tail os, Forall (well_formed p) gs -> Permutation gs gs' -> consistent gs ->
  same_effect (parse p (Some (words gs ++ tail)) os) (parse p (Some (words gs' ++ tail)) os).
Proof.
  intros p gs gs' tail os H P C.
  assert (H' : Forall (well_formed p) gs') by (eapply Permutation_Forall; eassumption).
  rewrite !composition by assumption. split; [reflexivity|]. intros a. cbn [fst]. rewrite !held_app.
  destruct (held a (fst (parse p (Some tail) os))); [reflexivity|]. apply held_same; [|exact C].
  intros w. rewrite !in_flat_map. split; intros (g&I&J); exists g; (split; [|assumption]).
  - eapply Permutation_in; eassumption.
  - eapply Permutation_in; [apply Permutation_sym|]; eassumption.
Qed.

Lemma split_group : forall p gs fs g hs tail os, Forall (well_formed p) (gs ++ {| flags := fs; value := None |} :: g :: hs) ->
  parse p (Some (words (gs ++ {| flags := fs ++ flags g; value := value g |} :: hs) ++ tail)) os =
  parse p (Some (words (gs ++ {| flags := fs; value := None |} :: g :: hs) ++ tail)) os.
Proof.
  intros p gs fs g hs tail os H.
  assert (H' : Forall (well_formed p) (gs ++ {| flags := fs ++ flags g; value := value g |} :: hs)).
  { rewrite Forall_forall in *. intros x I. rewrite in_app_iff in I. destruct I as [I|[I|I]].
    - apply H. rewrite in_app_iff. now left.
    - subst x. assert (W1 : well_formed p {| flags := fs; value := None |}) by (apply H; rewrite in_app_iff; right; now left).
      assert (W2 : well_formed p g) by (apply H; rewrite in_app_iff; right; right; now left).
      destruct W1 as [(A1&A2&A3&A4&_) _], W2 as [(B1&B2&B3&B4&B5) B6]. unfold well_formed, group_ok, names in *.
      cbn [flags value] in *. rewrite List.app_nil_r in *. rewrite map_app, <- List.app_assoc.
      split; [|exact B6]. split; [intros E; apply app_eq_nil in E as [E _]; contradiction|]. split.
      { intros E. destruct (map fst fs) as [|x [|y l]]; [contradiction| |discriminate]. cbn in E.
        injection E as -> E. contradiction. }
      split; [apply Forall_app; auto|]. split; [apply Forall_app; auto|assumption].
    - apply H. rewrite in_app_iff. right. right. now right. }
  rewrite !composition by assumption. f_equal. f_equal. rewrite !flat_map_app. f_equal. cbn [flat_map].
  rewrite List.app_assoc. f_equal. unfold group_writes. cbn [flags value]. rewrite map_app, List.app_nil_r.
  now rewrite List.app_assoc.
Qed.

Lemma some_write : forall p g, group_ok p g -> group_writes g <> [].
Proof.
  intros p [fs [v|]] (N&_) E; unfold group_writes, names in *; cbn [flags value] in *.
  - apply app_eq_nil in E as [_ E]. discriminate.
  - rewrite List.app_nil_r in E. destruct fs; [now apply N|discriminate].
Qed.

Lemma unknown_word : forall p c x rest os, valid_rune c -> unregistered p c -> c <> 45%N ->
  parse p (Some ((B "-" ++ encode_rune c) :: x :: rest)) os = ([], Fail err_unknown).
Proof.
  intros p c x rest os V U Nc.
  assert (Nd : B "-" ++ string_of_runes (map fst (@nil (N * nat))) ++ encode_rune c ++ [] <> B "--").
  { cbn [map string_of_runes flat_map app]. rewrite List.app_nil_r. intros E.
    assert (E' : encode_rune c = B "-") by (injection E as E; exact E).
    assert (R : range_runes (encode_rune c) = range_runes (B "-")) by now rewrite E'.
    replace (encode_rune c) with (string_of_runes [c]) in R by (unfold string_of_runes; cbn [flat_map]; apply List.app_nil_r).
    rewrite range_runes_str in R by (constructor; auto). cbn in R. apply Nc. now injection R. }
  pose proof (unknown_flag p [] c [] (x :: rest) os (Forall_nil _) (Forall_nil _) V U Nd) as H.
  cbn [map string_of_runes flat_map app] in H. rewrite List.app_nil_r in H. 
  cbn [beqb negb orb] in H. rewrite Bool.orb_true_r in H.
  assert (W : fst (parse p (Some ((B "-" ++ encode_rune c) :: x :: rest)) os) = []).
  { unfold parse. cbn [length].
    pose proof (bad_flag_from p [] c [] (x :: rest)) as Q. cbn [map string_of_runes flat_map app] in Q.
    rewrite List.app_nil_r in Q. rewrite Q; [|constructor|constructor|exact V|apply U|cbn [map string_of_runes flat_map app] in Nd; rewrite List.app_nil_r in Nd; exact Nd]. rewrite bundle_step.
    destruct U as (U1&U2&U3). rewrite U1. destruct (skipn _ _); unfold apply_value; now rewrite U2, U3. }
  destruct (parse p (Some ((B "-" ++ encode_rune c) :: x :: rest)) os) as [w r]. cbn in *. congruence.
Qed.
