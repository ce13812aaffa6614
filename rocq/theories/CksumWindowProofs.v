(* Four bytes of a text and its checksum (C138). *)
From Verif Require Import GoBase GoFacts CksumModel CksumSpec CksumProofs.
From Coq Require Import NArith Lia List FinFun.
Local Open Scope N_scope.

(* a function from the numbers below n to themselves that is injective reaches them all *)
Lemma reaches_all : forall n (f : N -> N), (forall i, i < n -> f i < n) ->
  (forall i j, i < n -> j < n -> f i = f j -> i = j) -> forall t, t < n -> exists i, i < n /\ f i = t.
Proof.
  intros n f Lt Inj t Ht. pose (range := map N.of_nat (seq 0 (N.to_nat n))).
  assert (In_range : forall i, In i range <-> i < n).
  { intros i. unfold range. rewrite in_map_iff. split.
    - intros (k & <- & Hk). apply in_seq in Hk. lia.
    - intros Hi. exists (N.to_nat i). split; [apply N2Nat.id|]. apply in_seq. lia. }
  assert (Nd : NoDup range).
  { unfold range. apply Injective_map_NoDup; [|apply seq_NoDup]. intros a b E. lia. }
  assert (Ndf : NoDup (map f range)).
  { assert (G : forall l, NoDup l -> (forall i, In i l -> i < n) -> NoDup (map f l)).
    { induction 1 as [|x l Hx Hl IH]; intros Hn; cbn [map]; constructor.
      - rewrite in_map_iff. intros (y & E & Hy). apply Inj in E; [subst; contradiction|apply Hn; now right|apply Hn; now left].
      - apply IH. intros i Hi. apply Hn. now right. }
    apply G; [exact Nd|]. intros i. apply In_range. }
  assert (Inc : incl range (map f range)).
  { apply NoDup_length_incl; [exact Ndf|rewrite map_length; lia|]. intros x Hx. apply in_map_iff in Hx as (i & <- & Hi).
    apply In_range. apply Lt. now apply In_range. }
  assert (Ht' : In t range) by now apply In_range. apply Inc in Ht'. apply in_map_iff in Ht' as (i & E & Hi). exists i. split; [now apply In_range|exact E].
Qed.

Lemma memcrc_lt : forall b, memcrc b < 2 ^ 32.
Proof.
  intros b. destruct (octets_of_exists (N.of_nat (length b))) as [l Hl].
  destruct (remainder_exists (map N_of_ascii b ++ l)) as (R & HR).
  - intros o Ho. apply in_app_or in Ho as [Ho|Ho]; [|now apply Hl]. apply in_map_iff in Ho as (c & <- & _). apply N_ascii_bounded.
  - rewrite (memcrc_posix b l R Hl HR). unfold complement32. change (2 ^ 32) with 4294967296. lia.
Qed.

Definition four (n : N) : bytes := map ascii_of_N [n / 16777216; n / 65536 mod 256; n / 256 mod 256; n mod 256].
Lemma four_inj : forall i j, i < 2 ^ 32 -> j < 2 ^ 32 -> four i = four j -> i = j.
Proof.
  intros i j Hi Hj H. change (2 ^ 32) with 4294967296 in *. unfold four in H. cbn [map] in H.
  assert (E : forall x y, x < 256 -> y < 256 -> ascii_of_N x = ascii_of_N y -> x = y).
  { intros x y Hx Hy Q. rewrite <- (N_ascii_embedding x Hx), <- (N_ascii_embedding y Hy). now rewrite Q. }
  assert (M : forall x, x mod 256 < 256) by (intros; now apply N.mod_upper_bound).
  assert (D : forall x, x < 4294967296 -> x / 16777216 < 256) by (intros x Hx; apply N.div_lt_upper_bound; lia).
  injection H as H1 H2 H3 H4. apply E in H1; auto. apply E in H2; auto. apply E in H3; auto. apply E in H4; auto.
  assert (S : forall x, x = 256 * (256 * (256 * (x / 16777216) + x / 65536 mod 256) + x / 256 mod 256) + x mod 256).
  { intros x. rewrite (N.div_mod x 256) at 1 by discriminate. f_equal. f_equal. rewrite (N.div_mod (x / 256) 256) at 1 by discriminate. f_equal. f_equal.
    rewrite N.div_div by discriminate. change (256 * 256) with 65536. rewrite (N.div_mod (x / 65536) 256) at 1 by discriminate. f_equal. f_equal.
    rewrite N.div_div by discriminate. reflexivity. }
  rewrite (S i), (S j). now rewrite H1, H2, H3, H4.
Qed.
Lemma bits_inj : forall a b, length a = length b -> bits a = bits b -> a = b.
Proof.
  induction a as [|x a IH]; intros [|y b] L E; try discriminate L; auto. cbn [bits flat_map] in E. unfold bits in *. cbn [flat_map] in E.
  assert (Q : byte_bits x = byte_bits y /\ flat_map byte_bits a = flat_map byte_bits b).
  { assert (Sp : forall u v s t : list bool, length u = length v -> u ++ s = v ++ t -> u = v /\ s = t).
    { induction u as [|p u IHu]; intros [|q v] s t Lu Eu; try discriminate Lu; [now split|]. injection Lu as Lu. injection Eu as -> Eu.
      destruct (IHu v s t Lu Eu) as [-> ->]. now split. }
    apply Sp; [reflexivity|exact E]. }
  destruct Q as [Q1 Q2]. f_equal.
  - rewrite <- (ascii_N_embedding x), <- (ascii_N_embedding y). rewrite <- !byte_bits_num. now rewrite Q1.
  - apply IH; [now injection L|exact Q2].
Qed.
Lemma window_differs : forall a w1 w2 z, length w1 = 4%nat -> length w2 = 4%nat -> memcrc (a ++ w1 ++ z) = memcrc (a ++ w2 ++ z) -> w1 = w2.
Proof.
  intros a w1 w2 z L1 L2 E. destruct (list_eq_dec ascii_dec w1 w2) as [|Ne]; [assumption|exfalso].
  revert E. apply memcrc_burst; [|rewrite !app_length; lia].
  exists (bits a), (bits w1), (bits w2), (bits z). unfold bits. rewrite !flat_map_app. repeat split; auto.
  - fold (bits w1) (bits w2). rewrite !bits_length. lia.
  - fold (bits w1). rewrite bits_length. lia.
  - intros Q. apply Ne. apply bits_inj; [lia|exact Q].
Qed.
Lemma window_reaches : forall a z t, t < 2 ^ 32 -> exists w, length w = 4%nat /\ memcrc (a ++ w ++ z) = t.
Proof.
  intros a z t Ht. destruct (reaches_all (2 ^ 32) (fun i => memcrc (a ++ four i ++ z))) with (t := t) as (i & _ & E); auto.
  - intros. apply memcrc_lt.
  - intros i j Hi Hj E. apply four_inj; auto. now apply (window_differs a _ _ z).
  - now exists (four i).
Qed.
