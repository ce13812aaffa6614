(* Go maps with string keys as association lists; proofs of the map laws. *)
From Verif Require Import GoBase GoFacts.

Section Map.
Context {A : Type}.
Definition smap := list (bytes * A).

(* m[k], None = absent *)
Fixpoint mfind (m : smap) (k : bytes) : option A :=
  match m with
  | [] => None
  | (k', v) :: r => if beqb k' k then Some v else mfind r k
  end.

(* m[k] = v *)
Fixpoint mset (m : smap) (k : bytes) (v : A) : smap :=
  match m with
  | [] => [(k, v)]
  | (k', v') :: r => if beqb k' k then (k', v) :: r else (k', v') :: mset r k v
  end.

(* delete(m, k) *)
Fixpoint mdel (m : smap) (k : bytes) : smap :=
  match m with
  | [] => []
  | (k', v') :: r => if beqb k' k then mdel r k else (k', v') :: mdel r k
  end.

Definition mkeys (m : smap) : list bytes := map fst m.

Lemma mfind_set : forall m k v k', mfind (mset m k v) k' = if beqb k k' then Some v else mfind m k'.
Proof.
  induction m as [|[k0 v0] m IH]; intros k v k'; simpl; auto.
  destruct (beqb k0 k) eqn:E; simpl.
  - apply beqb_eq in E. subst. destruct (beqb k k'); auto.
  - rewrite IH. destruct (beqb k0 k') eqn:E2; destruct (beqb k k') eqn:E3; auto.
    apply beqb_eq in E2, E3. subst. rewrite beqb_refl in E. discriminate.
Qed.

Lemma mfind_del : forall m k k', mfind (mdel m k) k' = if beqb k k' then None else mfind m k'.
Proof.
  induction m as [|[k0 v0] m IH]; intros k k'; simpl.
  - now destruct (beqb k k').
  - destruct (beqb k0 k) eqn:E; simpl; rewrite IH.
    + apply beqb_eq in E. subst. destruct (beqb k k'); auto.
    + destruct (beqb k0 k') eqn:E2; destruct (beqb k k') eqn:E3; auto.
      apply beqb_eq in E2, E3. subst. rewrite beqb_refl in E. discriminate.
Qed.

Lemma mfind_in_keys : forall m k, In k (mkeys m) <-> mfind m k <> None.
Proof.
  induction m as [|[k0 v0] m IH]; intros k; simpl.
  - split; [contradiction|congruence].
  - destruct (beqb k0 k) eqn:E.
    + apply beqb_eq in E. split; [discriminate|auto].
    + apply beqb_neq in E. rewrite <- IH. split; [intros [H|H]; [congruence|auto]|auto].
Qed.

Lemma mfind_in : forall m k v, NoDup (mkeys m) -> (mfind m k = Some v <-> In (k, v) m).
Proof.
  induction m as [|[k0 v0] m IH]; intros k v H; simpl.
  - split; [discriminate|contradiction].
  - inversion H; subst. destruct (beqb k0 k) eqn:E.
    + apply beqb_eq in E. subst. split; [intros [= ->]; auto|].
      intros [[= ->]|Hin]; auto. exfalso. apply H2. apply (in_map fst) in Hin. exact Hin.
    + apply beqb_neq in E. rewrite IH by auto. split; [auto|]. intros [[= -> ->]|Hin]; [congruence|auto].
Qed.

Lemma mkeys_set_in : forall m k v x, In x (mkeys (mset m k v)) <-> x = k \/ In x (mkeys m).
Proof.
  intros. rewrite !mfind_in_keys, mfind_set. destruct (beqb k x) eqn:E.
  - apply beqb_eq in E. subst. split; [auto|discriminate].
  - apply beqb_neq in E. split; [auto|]. intros [H|H]; [congruence|auto].
Qed.

Lemma mkeys_del_in : forall m k x, In x (mkeys (mdel m k)) <-> x <> k /\ In x (mkeys m).
Proof.
  intros. rewrite !mfind_in_keys, mfind_del. destruct (beqb k x) eqn:E.
  - apply beqb_eq in E. subst. split; [congruence|]. intros [H _]; congruence.
  - apply beqb_neq in E. split; [auto|]. tauto.
Qed.

Lemma mset_nodup : forall m k v, NoDup (mkeys m) -> NoDup (mkeys (mset m k v)).
Proof.
  induction m as [|[k0 v0] m IH]; intros k v H; simpl.
  - constructor; auto.
  - inversion H; subst. destruct (beqb k0 k) eqn:E; simpl; auto.
    constructor; auto. rewrite mkeys_set_in. apply beqb_neq in E. intros [->|]; auto.
Qed.

Lemma mdel_nodup : forall m k, NoDup (mkeys m) -> NoDup (mkeys (mdel m k)).
Proof.
  induction m as [|[k0 v0] m IH]; intros k H; simpl; auto. inversion H; subst.
  destruct (beqb k0 k); simpl; auto. constructor; auto. rewrite mkeys_del_in. tauto.
Qed.

Lemma mkeys_nil : forall m : smap, mkeys m = [] -> m = [].
Proof. intros [|? ?]; [auto|discriminate]. Qed.
End Map.
Arguments smap : clear implicits.
