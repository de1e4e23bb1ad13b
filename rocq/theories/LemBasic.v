(** Lemmas about lists, results and the update functions of [Outcome]. *)

From Coq Require Import ZArith Bool List Lia Permutation.
From Verif Require Import Num Geometry Outcome.
Import ListNotations.

Lemma bind_ok {A B} (r : res A) (f : A -> res B) b :
  bind r f = Ok b <-> exists a, r = Ok a /\ f a = Ok b.
Proof.
  destruct r; simpl; split.
  - intros H; eauto.
  - intros (a' & E & H); inversion E; subst; auto.
  - discriminate.
  - intros (a' & E & _); discriminate.
Qed.

Lemma bind_err {A B} (r : res A) (f : A -> res B) e :
  bind r f = Err e <-> r = Err e \/ exists a, r = Ok a /\ f a = Err e.
Proof.
  destruct r; simpl; split.
  - intros H; right; eauto.
  - intros [E | (a' & E & H)]; [discriminate | inversion E; subst; auto].
  - intros E; left; inversion E; auto.
  - intros [E | (a' & E & _)]; [inversion E; auto | discriminate].
Qed.

Lemma of_option_ok {A} e (o : option A) a : of_option e o = Ok a <-> o = Some a.
Proof. destruct o; simpl; split; intros H; inversion H; auto. Qed.

Lemma of_option_err {A} e e' (o : option A) : of_option e o = Err e' <-> o = None /\ e' = e.
Proof.
  destruct o; simpl; split; intros H; try discriminate.
  - destruct H; discriminate.
  - inversion H; auto.
  - destruct H; subst; auto.
Qed.

Ltac inv_ok :=
  repeat match goal with
  | H : Ok _ = Ok _ |- _ => injection H; clear H; intros; try subst
  | H : Err _ = Ok _ |- _ => discriminate H
  | H : Ok _ = Err _ |- _ => discriminate H
  | H : bind _ _ = Ok _ |- _ =>
      let a := fresh "a" in let Ha := fresh "Ha" in
      apply bind_ok in H; destruct H as (a & Ha & H)
  | H : of_option _ _ = Ok _ |- _ => apply of_option_ok in H
  | H : (_, _) = (_, _) |- _ => injection H; clear H; intros; try subst
  end.

Section Lists.
Context {A : Type}.

Lemma list_set_length i (a : A) l : length (list_set i a l) = length l.
Proof. revert i; induction l; intros [|i]; simpl; auto. Qed.

Lemma nth_error_list_set_eq i (a : A) l :
  i < length l -> nth_error (list_set i a l) i = Some a.
Proof. revert i; induction l; intros [|i] H; simpl in *; try lia; auto. apply IHl; lia. Qed.

Lemma nth_error_list_set_neq i j (a : A) l :
  i <> j -> nth_error (list_set i a l) j = nth_error l j.
Proof.
  revert i j; induction l; intros [|i] [|j] H; simpl; auto; try congruence.
Qed.

Lemma nth_error_list_set i j (a : A) l :
  nth_error (list_set i a l) j =
  if (Nat.eqb i j && Nat.ltb i (length l))%bool then Some a else nth_error l j.
Proof.
  destruct (Nat.eqb_spec i j) as [->|N]; simpl.
  - destruct (Nat.ltb_spec j (length l)).
    + apply nth_error_list_set_eq; auto.
    + rewrite !(proj2 (nth_error_None _ _)); auto. rewrite list_set_length; lia.
  - apply nth_error_list_set_neq; auto.
Qed.

Lemma list_set_same i (a : A) l : nth_error l i = Some a -> list_set i a l = l.
Proof.
  revert i; induction l; intros [|i] H; simpl in *; try discriminate.
  - inversion H; auto.
  - f_equal; auto.
Qed.

Lemma list_set_set i (a b : A) l : list_set i a (list_set i b l) = list_set i a l.
Proof. revert i; induction l; intros [|i]; simpl; auto. f_equal; auto. Qed.

Lemma list_set_map {B} (f : A -> B) i a l : map f (list_set i a l) = list_set i (f a) (map f l).
Proof. revert i; induction l; intros [|i]; simpl; auto. f_equal; auto. Qed.

Lemma list_set_app_lt i (a : A) l l' :
  i < length l -> list_set i a (l ++ l') = list_set i a l ++ l'.
Proof. revert i; induction l; intros [|i] H; simpl in *; try lia; auto. f_equal. apply IHl; lia. Qed.

Lemma list_del_perm i (a : A) l : nth_error l i = Some a -> Permutation l (a :: list_del i l).
Proof.
  revert i; induction l; intros [|i] H; simpl in *; try discriminate.
  - inversion H; auto.
  - etransitivity; [apply perm_skip, (IHl i H)|]. apply perm_swap.
Qed.

Lemma list_del_incl i (l : list A) x : In x (list_del i l) -> In x l.
Proof.
  revert i; induction l; intros [|i] H; simpl in *; auto. destruct H; eauto.
Qed.

Lemma list_del_map {B} (f : A -> B) i l : map f (list_del i l) = list_del i (map f l).
Proof. revert i; induction l; intros [|i]; simpl; auto. f_equal; auto. Qed.

Lemma list_del_length i (l : list A) : i < length l -> S (length (list_del i l)) = length l.
Proof. revert i; induction l; intros [|i] H; simpl in *; try lia. rewrite IHl; lia. Qed.

Lemma nth_error_ext (l l' : list A) :
  (forall i, nth_error l i = nth_error l' i) -> l = l'.
Proof.
  revert l'; induction l; intros [|b l'] H; auto.
  - specialize (H 0); discriminate.
  - specialize (H 0); discriminate.
  - f_equal.
    + specialize (H 0); simpl in H; inversion H; auto.
    + apply IHl. intros i. apply (H (S i)).
Qed.

Lemma filter_length_split (f : A -> bool) l :
  length l = length (filter f l) + length (filter (fun x => negb (f x)) l).
Proof. induction l; simpl; auto. destruct (f a); simpl; lia. Qed.

Lemma filter_all (f : A -> bool) l : (forall x, In x l -> f x = true) -> filter f l = l.
Proof.
  induction l; simpl; auto. intros Hf.
  rewrite (Hf a) by auto. f_equal. apply IHl; auto.
Qed.

Lemma filter_filter (f g : A -> bool) l :
  filter f (filter g l) = filter (fun x => (g x && f x)%bool) l.
Proof. induction l; simpl; auto. destruct (g a); simpl; auto. destruct (f a); rewrite IHl; auto. Qed.

Lemma filter_map_comm {B} (f : A -> B) (g : B -> bool) l :
  filter g (map f l) = map f (filter (fun x => g (f x)) l).
Proof. induction l; simpl; auto. destruct (g (f a)); simpl; rewrite IHl; auto. Qed.

Lemma NoDup_filter' (f : A -> bool) l : NoDup l -> NoDup (filter f l).
Proof. apply NoDup_filter. Qed.

Lemma NoDup_map_filter {B} (f : A -> B) g l : NoDup (map f l) -> NoDup (map f (filter g l)).
Proof.
  induction l; simpl; intros H; auto. inversion H; subst.
  destruct (g a); simpl; auto. constructor; auto.
  intros Hin. apply H2. apply in_map_iff in Hin. destruct Hin as (x & E & Hx).
  apply filter_In in Hx. apply in_map_iff. exists x; tauto.
Qed.

Lemma NoDup_snoc (a : A) l : NoDup l -> ~ In a l -> NoDup (l ++ [a]).
Proof.
  intros Hl Ha. apply (Permutation_NoDup (l := a :: l)).
  - apply Permutation_cons_append.
  - constructor; auto.
Qed.

Lemma NoDup_app_remove_l (l l' : list A) : NoDup (l ++ l') -> NoDup l'.
Proof. induction l; simpl; auto. intros N; inversion N; auto. Qed.
Lemma NoDup_app_remove_r (l l' : list A) : NoDup (l ++ l') -> NoDup l.
Proof.
  induction l; simpl; intros N; [constructor|]. inversion N; subst. constructor; auto.
  intros Hin. apply H1. apply in_or_app; auto.
Qed.

Lemma nth_error_repeat (a : A) n i : i < n -> nth_error (repeat a n) i = Some a.
Proof. revert i; induction n; intros [|i] H; simpl; auto; try lia. apply IHn; lia. Qed.

Lemma Permutation_filter (f : A -> bool) l l' :
  Permutation l l' -> Permutation (filter f l) (filter f l').
Proof.
  induction 1; simpl; auto.
  - destruct (f x); auto.
  - destruct (f x), (f y); auto. apply perm_swap.
  - etransitivity; eauto.
Qed.

End Lists.

Lemma combine_map_fst {A B C} (f : A -> C) (l : list A) (l' : list B) :
  combine (map f l) l' = map (fun p => (f (fst p), snd p)) (combine l l').
Proof. revert l'; induction l; intros [|b l']; simpl; auto. f_equal; auto. Qed.

(** Permutations of lists of integers, by counting. *)
Lemma perm_count (l l' : list Z) :
  (forall x, count_occ Z.eq_dec l x = count_occ Z.eq_dec l' x) <-> Permutation l l'.
Proof. symmetry. apply Permutation_count_occ. Qed.
Lemma count_occ_cons_Z (y x : Z) l :
  count_occ Z.eq_dec (y :: l) x = (count_occ Z.eq_dec [y] x + count_occ Z.eq_dec l x)%nat.
Proof. simpl. destruct (Z.eq_dec y x); lia. Qed.
