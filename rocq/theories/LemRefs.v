(** * Proofs about reference counts *)

From Coq Require Import ZArith Bool String List Lia.
From Verif Require Import Num Geometry Outcome Steppers Transforms MagicLamp Program GlibParams GlibAnim GlibRefs.
From Verif Require Import SpecGlibAnim SpecRefs LemBasic LemGlibAnim.
Import ListNotations.
Local Open Scope nat_scope.

(** ** Counting references *)

Definition ind (b : option nat) (i : nat) : nat := match b with Some j => if Nat.eqb j i then 1 else 0 | None => 0 end.
Fixpoint refs_to (l : list (nat * option nat)) (i : nat) : nat :=
  match l with [] => 0 | (_, b) :: t => ind b i + refs_to t i end.

Lemma refs_to_app l1 l2 i : refs_to (l1 ++ l2) i = refs_to l1 i + refs_to l2 i.
Proof. induction l1 as [|[n b] t IH]; [reflexivity|]. cbn. rewrite IH. lia. Qed.

Lemma refs_to_set l : forall j n b n' b' i, nth_error l j = Some (n, b) ->
  refs_to (list_set j (n', b') l) i + ind b i = refs_to l i + ind b' i.
Proof.
  induction l as [|[m c] t IH]; intros [|j] n b n' b' i N; try discriminate N; cbn [list_set refs_to].
  - injection N as -> ->. lia.
  - specialize (IH j n b n' b' i N). lia.
Qed.

Lemma refs_to_none l i : (forall j n k, nth_error l j = Some (n, Some k) -> k <> i) -> refs_to l i = 0.
Proof.
  induction l as [|[n [k|]] t IH]; intros A; [reflexivity| |]; cbn.
  - rewrite IH by (intros j; apply (A (S j))). specialize (A 0 n k eq_refl). apply PeanoNat.Nat.eqb_neq in A. rewrite A. reflexivity.
  - apply IH. intros j. apply (A (S j)).
Qed.
Lemma refs_to_some l i : 0 < refs_to l i -> exists j n, nth_error l j = Some (n, Some i).
Proof.
  induction l as [|[n b] t IH]; cbn; intros P; [lia|]. destruct (PeanoNat.Nat.eq_dec (ind b i) 0) as [E|E].
  - rewrite E in P. destruct (IH P) as (j & m & X). exists (S j), m. exact X.
  - exists 0, n. cbn. destruct b as [k|]; [|cbn in E; lia]. cbn in E. destruct (Nat.eqb k i) eqn:K; [|lia].
    apply PeanoNat.Nat.eqb_eq in K. subst. reflexivity.
Qed.

(** Each count is the number of references held: [f] by others, the rest by
    reverse steppers. *)
Definition core (l : list (nat * option nat)) (f : nat -> nat) : Prop :=
  (forall i n b, nth_error l i = Some (n, b) -> n = f i + refs_to l i) /\
  (forall i, length l <= i -> f i = 0) /\
  (forall j n i, nth_error l j = Some (n, Some i) -> i < j /\ 0 < n).

Definition upd (f : nat -> nat) (i v : nat) : nat -> nat := fun k => if Nat.eqb k i then v else f k.
Lemma upd_same f i v : upd f i v i = v.
Proof. unfold upd. rewrite PeanoNat.Nat.eqb_refl. reflexivity. Qed.
Lemma upd_other f i v k : k <> i -> upd f i v k = f k.
Proof. intros N. unfold upd. apply PeanoNat.Nat.eqb_neq in N. rewrite N. reflexivity. Qed.

Lemma core_ext l f g : (forall i, f i = g i) -> core l f -> core l g.
Proof. intros E (A & B & C). split; [|split]; [| |exact C]; intros; rewrite <- E; eauto. Qed.

Lemma nth_set {A} (l : list A) i x k y : nth_error (list_set i x l) k = Some y ->
  (k = i /\ y = x /\ i < length l) \/ (k <> i /\ nth_error l k = Some y).
Proof.
  revert i k. induction l as [|z t IH]; intros [|i] [|k] E; try discriminate E; cbn in *.
  - left. injection E as ->. repeat split; lia.
  - right. auto.
  - right. auto.
  - destruct (IH i k E) as [(-> & -> & L)|[N X]]; [left|right]; repeat split; auto; lia.
Qed.
Lemma nth_set_eq {A} (l : list A) i x : i < length l -> nth_error (list_set i x l) i = Some x.
Proof. revert i. induction l as [|z t IH]; intros [|i] L; cbn in *; try lia; [reflexivity|]. apply IH. lia. Qed.
Lemma nth_set_neq {A} (l : list A) i x k : k <> i -> nth_error (list_set i x l) k = nth_error l k.
Proof.
  revert i k. induction l as [|z t IH]; intros [|i] [|k] N; cbn; try reflexivity; try congruence. apply IH. congruence.
Qed.
Lemma nth_lt {A} (l : list A) i x : nth_error l i = Some x -> i < length l.
Proof. intros E. apply nth_error_Some. congruence. Qed.

Section Refs.
Context {F D : Type} `{Num F} `{Num D} `{Conv F D} `{Libm F} `{Libm D}.
Implicit Types (c : aclient).

(** A count is 0 exactly for finalized objects. *)
Definition kinds (l : list (nat * option nat)) (ks : list (option skind)) : Prop :=
  length l = length ks /\
  forall i n b k, nth_error l i = Some (n, b) -> nth_error ks i = Some k -> (n = 0 <-> k = None).

Lemma kinds_nth l ks i n b : kinds l ks -> nth_error l i = Some (n, b) -> exists k, nth_error ks i = Some k.
Proof. intros [L _] N. apply nth_lt in N. destruct (nth_error ks i) eqn:E; [eauto|]. apply nth_error_None in E. lia. Qed.

Lemma aeach_app l1 : forall c l2, aeach acareful c (l1 ++ l2) <-> aeach acareful c l1 /\ aeach acareful (fold_left (aclient_do (F := F) (D := D)) l1 c) l2.
Proof. induction l1 as [|o t IH]; intros c l2; cbn; [tauto|]. rewrite IH. tauto. Qed.

(** Objects are only changed towards being finalized. *)
Definition shrinks (l l' : list (nat * option nat)) (ks ks' : list (option skind)) : Prop :=
  (forall i n b, nth_error l' i = Some (n, b) -> 0 < n -> exists m, nth_error l i = Some (m, b) /\ 0 < m) /\
  (forall i k, nth_error ks' i = Some (Some k) -> nth_error ks i = Some (Some k)) /\
  (forall i k, nth_error ks i = Some k -> nth_error ks' i = Some k \/ nth_error ks' i = Some None).

Lemma drop_ok fuel : forall l an lost f c i,
  core l f -> kinds l (ac_steppers c) -> 0 < f i -> i < fuel ->
  (forall k a, nth_error (ac_steppers c) k = Some (Some (Observes a)) -> 0 < upd f i (f i - 1) k) ->
  exists l' calls, drop_stepper (F := F) (D := D) fuel (mkRefs l an lost) i = Ok (mkRefs l' an lost, calls) /\
    core l' (upd f i (f i - 1)) /\
    kinds l' (ac_steppers (fold_left (aclient_do (F := F) (D := D)) calls c)) /\
    ac_anims (fold_left (aclient_do (F := F) (D := D)) calls c) = ac_anims c /\
    aeach acareful c calls /\ length l' = length l /\
    shrinks l l' (ac_steppers c) (ac_steppers (fold_left (aclient_do (F := F) (D := D)) calls c)) /\
    (forall k, i < k -> nth_error l' k = nth_error l k) /\
    (forall k, i < k -> nth_error (ac_steppers (fold_left (aclient_do (F := F) (D := D)) calls c)) k = nth_error (ac_steppers c) k).
Proof.
  induction fuel as [|fuel IH]; intros l an lost f c i CO KI P L W; [lia|].
  destruct CO as (A & B & C).
  assert (I : i < length l). { destruct (PeanoNat.Nat.lt_ge_cases i (length l)) as [X|X]; [exact X|]. rewrite (B _ X) in P. lia. }
  destruct (nth_error l i) as [[n b]|] eqn:N; [|apply nth_error_None in N; lia].
  pose proof (A _ _ _ N) as Q.
  destruct n as [|[|n]]; [lia| |].
  - (* last reference *)
    assert (f i = 1 /\ refs_to l i = 0) as [Fi R0] by lia. clear Q.
    cbn [drop_stepper rf_steppers rf_anims rf_lost]. rewrite N.
    destruct (kinds_nth _ _ _ _ _ KI N) as [k0 K0].
    assert (K0' : k0 = Some Own).
    { destruct k0 as [[|a]|]; [reflexivity| |].
      - specialize (W _ _ K0). rewrite upd_same in W. lia.
      - destruct KI as [_ KI]. specialize (KI _ _ _ _ N K0). destruct KI as [_ KI]. specialize (KI eq_refl). discriminate KI. }
    subst k0.
    assert (R1 : forall k, refs_to (list_set i (1, None) l) k + ind b k = refs_to l k).
    { intros k. pose proof (refs_to_set l i 1 b 1 None k N). cbn [ind] in *. lia. }
    assert (KI1 : kinds (list_set i (1, None) l) (ac_steppers c)).
    { destruct KI as [K1 K2]. split; [rewrite list_set_length; exact K1|]. intros k m b' kk E1 E2. apply nth_set in E1.
      destruct E1 as [(-> & E1 & _)|[_ E1]]; [|eauto]. injection E1 as -> ->. split; [lia|]. intros ->. rewrite K0 in E2. discriminate E2. }
    set (g := match b with Some j => upd f j (S (f j)) | None => f end).
    assert (CO1 : core (list_set i (1, None) l) g).
    { split; [|split].
      - intros k m b' E. apply nth_set in E. specialize (R1 k). destruct E as [(-> & E & _)|[NE E]].
        + injection E as -> ->. destruct b as [j|]; unfold g; cbn [ind] in R1.
          * pose proof (C _ _ _ N) as [Lj _]. rewrite upd_other by lia. lia.
          * lia.
        + pose proof (A _ _ _ E) as Ak. destruct b as [j|]; unfold g; cbn [ind] in R1.
          * destruct (PeanoNat.Nat.eq_dec k j) as [->|NJ].
            -- rewrite upd_same. rewrite PeanoNat.Nat.eqb_refl in R1. lia.
            -- rewrite upd_other by exact NJ. assert (X : Nat.eqb j k = false) by (apply PeanoNat.Nat.eqb_neq; congruence).
               rewrite X in R1. lia.
          * lia.
      - intros k Lk. rewrite list_set_length in Lk. destruct b as [j|]; unfold g; [|auto].
        pose proof (C _ _ _ N) as [Lj _]. rewrite upd_other by lia. auto.
      - intros j m k E. apply nth_set in E. destruct E as [(-> & E & _)|[_ E]]; [discriminate E|eauto]. }
    assert (exists l1 calls, (match b with Some j => drop_stepper (F := F) (D := D) fuel (mkRefs (list_set i (1, None) l) an lost) j
                              | None => Ok (mkRefs (list_set i (1, None) l) an lost, []) end) = Ok (mkRefs l1 an lost, calls) /\
              core l1 f /\ kinds l1 (ac_steppers (fold_left (aclient_do (F := F) (D := D)) calls c)) /\
              ac_anims (fold_left (aclient_do (F := F) (D := D)) calls c) = ac_anims c /\
              aeach acareful c calls /\ length l1 = length l /\
              shrinks (list_set i (1, None) l) l1 (ac_steppers c) (ac_steppers (fold_left (aclient_do (F := F) (D := D)) calls c)) /\
              (forall k, i <= k -> nth_error l1 k = nth_error (list_set i (1, None) l) k) /\
              (forall k, i <= k -> nth_error (ac_steppers (fold_left (aclient_do (F := F) (D := D)) calls c)) k = nth_error (ac_steppers c) k))
      as (l1 & calls & E1 & CO2 & KI2 & AN & AC & LE & SH & UP & UK).
    { destruct b as [j|].
      - pose proof (C _ _ _ N) as [Lj _].
        destruct (IH (list_set i (1, None) l) an lost g c j CO1 KI1) as (l1 & calls & E1 & CO2 & KI2 & AN & AC & LE & SH & UP & UK).
        + unfold g. rewrite upd_same. lia.
        + lia.
        + intros k a Ka. specialize (W _ _ Ka). unfold g. unfold upd in *. rewrite PeanoNat.Nat.eqb_refl.
          destruct (Nat.eqb k j) eqn:KJ.
          * apply PeanoNat.Nat.eqb_eq in KJ. subst k. assert (X : Nat.eqb j i = false) by (apply PeanoNat.Nat.eqb_neq; lia).
            rewrite X in W. lia.
          * destruct (Nat.eqb k i) eqn:Ki; [lia|exact W].
        + exists l1, calls. rewrite list_set_length in LE.
          assert (CO3 : core l1 f).
          { eapply core_ext; [|exact CO2]. intros k. unfold g, upd. rewrite PeanoNat.Nat.eqb_refl. destruct (Nat.eqb k j) eqn:KJ; [|reflexivity].
            apply PeanoNat.Nat.eqb_eq in KJ. subst k. lia. }
          repeat (split; [assumption|]). split; intros k Hk; [apply UP|apply UK]; lia.
      - exists (list_set i (1, None) l), []. cbn [fold_left aeach]. rewrite list_set_length.
        repeat (split; [first [reflexivity|assumption|exact I]|]).
        split; [|split; [reflexivity|reflexivity]].
        split; [|split].
        + intros k n b E P0. eauto.
        + intros; assumption.
        + intros; auto. }
    rewrite E1. cbn [bind fst snd rf_steppers rf_anims rf_lost].
    exists (list_set i (0, None) l1), (calls ++ [AStepperFinalize i]).
    assert (N1 : nth_error l1 i = Some (1, None)) by (rewrite UP by lia; apply nth_set_eq; exact I).
    assert (Kc : nth_error (ac_steppers (fold_left (aclient_do (F := F) (D := D)) calls c)) i = Some (Some Own)) by (rewrite UK by lia; exact K0).
    split; [reflexivity|]. rewrite fold_left_app. cbn [fold_left aclient_do ac_steppers ac_anims].
    destruct CO2 as (A2 & B2 & C2).
    assert (R2 : forall k, refs_to (list_set i (0, None) l1) k = refs_to l1 k).
    { intros k. pose proof (refs_to_set l1 i 1 None 0 None k N1). lia. }
    split; [|split; [|split; [|split; [|split; [|split; [|split]]]]]].
    + split; [|split].
      * intros k m b' E. rewrite R2. apply nth_set in E. destruct E as [(-> & E & _)|[NE E]].
        -- injection E as -> ->. rewrite upd_same. pose proof (A2 _ _ _ N1). lia.
        -- rewrite upd_other by exact NE. eauto.
      * intros k Lk. rewrite list_set_length in Lk. rewrite upd_other by lia. auto.
      * intros j m k E. apply nth_set in E. destruct E as [(-> & E & _)|[_ E]]; [discriminate E|eauto].
    + destruct KI2 as [K1 K2]. split; [rewrite !list_set_length; exact K1|]. intros k m b' kk X Y. apply nth_set in X. apply nth_set in Y.
      destruct X as [(-> & X & _)|[NX X]], Y as [(E & Y & _)|[NY Y]]; try congruence; [|eauto].
      injection X as -> ->. subst kk. tauto.
    + exact AN.
    + apply aeach_app. split; [exact AC|]. cbn. auto.
    + rewrite list_set_length. exact LE.
    + destruct SH as (S1 & S2 & S3). split; [|split].
      * intros k m b' E P0. apply nth_set in E. destruct E as [(-> & E & _)|[NE E]]; [injection E as -> ->; lia|].
        destruct (S1 _ _ _ E P0) as (m0 & E0 & P1). rewrite nth_set_neq in E0 by exact NE. eauto.
      * intros k kk E. apply nth_set in E. destruct E as [(-> & E & _)|[NE E]]; [discriminate E|eauto].
      * intros k kk E. destruct (PeanoNat.Nat.eq_dec k i) as [->|NE].
        -- right. apply nth_set_eq. apply nth_lt in Kc. exact Kc.
        -- rewrite nth_set_neq by exact NE. auto.
    + intros k Lk. rewrite nth_set_neq by lia. rewrite UP by lia. apply nth_set_neq. lia.
    + intros k Lk. rewrite nth_set_neq by lia. apply UK. lia.
  - (* other references remain *)
    cbn [drop_stepper rf_steppers rf_anims rf_lost]. rewrite N.
    exists (list_set i (S n, b) l), []. cbn [fold_left aeach]. split; [reflexivity|].
    assert (R1 : forall k, refs_to (list_set i (S n, b) l) k = refs_to l k).
    { intros k. pose proof (refs_to_set l i (S (S n)) b (S n) b k N). lia. }
    split; [|split; [|split; [reflexivity|split; [exact Logic.I|split; [apply list_set_length|split; [|split; [|reflexivity]]]]]]].
    + split; [|split].
      * intros k m b' E. rewrite R1. apply nth_set in E. destruct E as [(-> & E & _)|[NE E]].
        -- injection E as -> ->. rewrite upd_same. lia.
        -- rewrite upd_other by exact NE. eauto.
      * intros k Lk. rewrite list_set_length in Lk. rewrite upd_other by lia. auto.
      * intros j m k E. apply nth_set in E. destruct E as [(-> & E & _)|[_ E]]; [|eauto]. injection E as -> <-. split; [eapply C; eauto|lia].
    + destruct KI as [K1 K2]. split; [rewrite list_set_length; exact K1|]. intros k m b' kk E1 E2. apply nth_set in E1.
      destruct E1 as [(-> & E1 & _)|[_ E1]]; [|eauto]. injection E1 as -> ->. specialize (K2 _ _ _ _ N E2). split; [lia|].
      intros X. apply K2 in X. lia.
    + split; [|split].
      * intros k m b' E P0. apply nth_set in E. destruct E as [(-> & E & _)|[NE E]]; [|eauto]. injection E as -> ->. exists (S (S n)). split; [exact N|lia].
      * auto.
      * auto.
    + intros k Lk. apply nth_set_neq. lia.
Qed.

(** ** Histories *)

Implicit Types (h : khistory F D).
Definition b2n (b : bool) : nat := if b then 1 else 0.
Lemma acquired_app h p x : acquired (h ++ [p]) x = acquired h x + b2n (is_obj x (acquires p)).
Proof. unfold acquired. rewrite filter_app, app_length. cbn. destruct (is_obj x (acquires p)); reflexivity. Qed.
Lemma released_app h p x : released (h ++ [p]) x = released h x + b2n (is_obj x (releases p)).
Proof. unfold released. rewrite filter_app, app_length. cbn. destruct (is_obj x (releases p)); reflexivity. Qed.

Lemma is_obj_refl x : is_obj x (Some x) = true.
Proof. cbn. destruct (gobj_dec x x); congruence. Qed.
Lemma is_obj_neq x y : x <> y -> is_obj x (Some y) = false.
Proof. intros N. cbn. destruct (gobj_dec x y); congruence. Qed.

Lemma acquired_in h p x : In p h -> acquires p = Some x -> 0 < acquired h x.
Proof.
  intros I A. unfold acquired. destruct (filter _ h) eqn:E; [|cbn; lia].
  assert (In p (filter (fun p => is_obj x (acquires p)) h)) by (apply filter_In; split; [exact I|]; rewrite A; apply is_obj_refl).
  rewrite E in *. contradiction.
Qed.

Definition own h (x : gobj) : nat := acquired h x - released h x.
Definition dflt (ds : list nat) (i : nat) : nat := b2n (if in_dec PeanoNat.Nat.eq_dec i ds then true else false).

Record inv h (r : refs) (c : aclient) (ds : list nat) : Prop := {
  iv_rel : forall x, released h x <= acquired h x;
  iv_core : core (rf_steppers r) (fun i => own h (OStepper i) + dflt ds i);
  iv_kinds : kinds (rf_steppers r) (ac_steppers c);
  iv_alen : length (rf_anims r) = length (ac_anims c);
  iv_anims : forall a n, nth_error (rf_anims r) a = Some n -> n = own h (OAnim a) /\ nth_error (ac_anims c) a = Some (Nat.ltb 0 n);
  iv_aout : forall a, length (rf_anims r) <= a -> acquired h (OAnim a) = 0;
  iv_sout : forall i, length (rf_steppers r) <= i -> acquired h (OStepper i) = 0;
  iv_obsA : forall i a, nth_error (ac_steppers c) i = Some (Some (Observes a)) -> observes h i a;
  iv_obsB : forall i a, observes h i a -> nth_error (ac_steppers c) i = Some (Some (Observes a));
  iv_obsC : forall i a, observes h i a -> 0 < own h (OStepper i);
  iv_obsD : forall i a n b, nth_error (ac_steppers c) i = Some (Some (Observes a)) -> nth_error (rf_steppers r) i = Some (n, b) -> b = None;
  iv_revA : forall i j n, nth_error (rf_steppers r) j = Some (n, Some i) -> reverses h j i;
  iv_revB : forall i j n b, reverses h j i -> nth_error (rf_steppers r) j = Some (n, b) -> 0 < n -> b = Some i;
  iv_nodup : NoDup ds;
  iv_ds : forall i, In i ds -> i < length (rf_steppers r) /\ acquired h (OStepper i) = 0
}.

Lemma inv_start : inv [] (mkRefs [] [] 0) aclient_start [].
Proof.
  constructor; cbn; auto; try solve [intros [|i]; discriminate]; try solve [intros [|i] j; discriminate]; try contradiction.
  - split; [|split]; [intros [|i]; discriminate|reflexivity|intros [|j]; discriminate].
  - split; [reflexivity|]. intros [|i]; discriminate.
  - intros i [|j]; discriminate.
  - constructor.
Qed.

Lemma holds_own h x : holds h x <-> 0 < own h x.
Proof. unfold holds, own. lia. Qed.

Lemma held_stepper h r c ds i : inv h r c ds -> holds h (OStepper i) ->
  exists n b k, nth_error (rf_steppers r) i = Some (S n, b) /\ nth_error (ac_steppers c) i = Some (Some k) /\ i < length (rf_steppers r).
Proof.
  intros V Hd. apply holds_own in Hd. destruct (iv_core _ _ _ _ V) as (A & B & _).
  destruct (PeanoNat.Nat.lt_ge_cases i (length (rf_steppers r))) as [L|L]; [|specialize (B _ L); cbn in B; lia].
  destruct (nth_error (rf_steppers r) i) as [[n b]|] eqn:N; [|apply nth_error_None in N; lia].
  specialize (A _ _ _ N). cbn in A. destruct (kinds_nth _ _ _ _ _ (iv_kinds _ _ _ _ V) N) as [k K].
  destruct (iv_kinds _ _ _ _ V) as [_ KK]. specialize (KK _ _ _ _ N K).
  destruct n as [|n]; [lia|]. destruct k as [k|]; [|destruct KK as [_ KK]; specialize (KK eq_refl); discriminate KK].
  exists n, b, k. auto.
Qed.

Lemma held_anim h r c ds a : inv h r c ds -> holds h (OAnim a) -> exists n, nth_error (rf_anims r) a = Some (S n) /\ present c a.
Proof.
  intros V Hd. pose proof Hd as Hd'. apply holds_own in Hd.
  destruct (PeanoNat.Nat.lt_ge_cases a (length (rf_anims r))) as [L|L]; [|pose proof (iv_aout _ _ _ _ V _ L); unfold own in Hd; lia].
  destruct (nth_error (rf_anims r) a) as [n|] eqn:N; [|apply nth_error_None in N; lia].
  destruct (iv_anims _ _ _ _ V _ _ N) as [E P]. destruct n as [|n]; [lia|]. exists n. split; [reflexivity|exact P].
Qed.

Lemma can_use_usable h r c ds i : inv h r c ds -> can_use h i -> usable c i.
Proof.
  intros V [Hd O]. destruct (held_stepper _ _ _ _ _ V Hd) as (n & b & k & _ & K & _). destruct k as [|a]; [left; exact K|].
  right. exists a. split; [exact K|]. apply (iv_obsA _ _ _ _ V) in K. destruct (held_anim _ _ _ _ _ V (O _ K)) as (m & _ & P). exact P.
Qed.
Lemma can_use_null h r c ds i : inv h r c ds -> can_use_or_null h i -> usable_or_null c i.
Proof. destruct i; cbn; [apply can_use_usable|auto]. Qed.

(** What a call returns, in terms of the numbers of objects so far. *)
Definition out_ok (r : refs) (o : kop F D) (u : gaout F) : Prop :=
  match o with
  | KNewLinear _ | KNewReverse _ | KGetStepper _ => u = RStepper (length (rf_steppers r))
  | KNew _ => u = RAnim (length (rf_anims r))
  | _ => True
  end.

(** A call that neither makes objects nor changes references. *)
Lemma inv_frame h r c ds o u : inv h r c ds -> acquires (o, u) = None -> releases (o, u) = None ->
  (forall a, o <> KGetStepper a) -> (forall i, o <> KNewReverse i) -> inv (h ++ [(o, u)]) r c ds.
Proof.
  intros V A R G N.
  assert (EA : forall x, acquired (h ++ [(o, u)]) x = acquired h x) by (intros x; rewrite acquired_app, A; cbn; lia).
  assert (ER : forall x, released (h ++ [(o, u)]) x = released h x) by (intros x; rewrite released_app, R; cbn; lia).
  assert (EO : forall x, own (h ++ [(o, u)]) x = own h x) by (intros x; unfold own; rewrite EA, ER; reflexivity).
  assert (OB : forall i a, observes (h ++ [(o, u)]) i a <-> observes h i a).
  { intros i a. unfold observes. rewrite in_app_iff. cbn. split; [intros [X|[X|[]]]; [exact X|]|auto]. injection X as -> _. exfalso. eapply G; reflexivity. }
  assert (RE : forall i j, reverses (h ++ [(o, u)]) j i <-> reverses h j i).
  { intros i a. unfold reverses. rewrite in_app_iff. cbn. split; [intros [X|[X|[]]]; [exact X|]|auto]. injection X as -> _. exfalso. eapply N; reflexivity. }
  destruct V. constructor; auto.
  - intros x. rewrite EA, ER. auto.
  - eapply core_ext; [|exact iv_core0]. intros i. cbn. rewrite EO. reflexivity.
  - intros a n. rewrite EO. auto.
  - intros a. rewrite EA. auto.
  - intros i. rewrite EA. auto.
  - intros i a X. apply OB. auto.
  - intros i a X. apply OB in X. auto.
  - intros i a X. apply OB in X. rewrite EO. eauto.
  - intros i j n X. apply RE. eauto.
  - intros i j n b X. apply RE in X. eauto.
  - intros i X. rewrite EA. auto.
Qed.

(** A call that returns a new stepper object. *)
Definition counted (l : list (nat * option nat)) (b : option nat) : list (nat * option nat) :=
  match b with
  | Some j => match nth_error l j with Some (n, b') => list_set j (S n, b') l | None => l end
  | None => l
  end.
Lemma counted_length l b : length (counted l b) = length l.
Proof. destruct b as [j|]; cbn; [|reflexivity]. destruct (nth_error l j) as [[n b']|]; [apply list_set_length|reflexivity]. Qed.
Lemma counted_refs l b i : refs_to (counted l b) i = refs_to l i.
Proof.
  destruct b as [j|]; cbn; [|reflexivity]. destruct (nth_error l j) as [[n b']|] eqn:N; [|reflexivity].
  pose proof (refs_to_set l j n b' (S n) b' i N). lia.
Qed.
Lemma counted_nth l b i n b' : nth_error (counted l b) i = Some (n, b') ->
  exists m, nth_error l i = Some (m, b') /\ n = m + ind b i.
Proof.
  destruct b as [j|]; cbn; [|exists n; split; [assumption|lia]]. destruct (nth_error l j) as [[m c]|] eqn:N; intros E.
  - apply nth_set in E. destruct E as [(-> & E & _)|[NE E]].
    + injection E as -> ->. exists m. rewrite PeanoNat.Nat.eqb_refl. split; [exact N|lia].
    + exists n. assert (X : Nat.eqb j i = false) by (apply PeanoNat.Nat.eqb_neq; congruence). rewrite X. split; [exact E|lia].
  - exists n. split; [exact E|]. destruct (Nat.eqb j i) eqn:X; [|lia]. apply PeanoNat.Nat.eqb_eq in X. congruence.
Qed.

Lemma nth_snoc {A} (l : list A) x i y : nth_error (l ++ [x]) i = Some y -> (i < length l /\ nth_error l i = Some y) \/ (i = length l /\ y = x).
Proof.
  intros E. destruct (PeanoNat.Nat.lt_ge_cases i (length l)) as [L|L].
  - rewrite nth_error_app1 in E by exact L. auto.
  - rewrite nth_error_app2 in E by exact L. destruct (i - length l) as [|[|k]] eqn:K; try discriminate E. injection E as ->. right. split; [lia|reflexivity].
Qed.

Lemma inv_new h r c ds o b k : inv h r c ds ->
  let u := RStepper (length (rf_steppers r)) in
  acquires (o, u) = Some (OStepper (length (rf_steppers r))) -> releases (o, u) = None ->
  (forall i, o = KNewReverse (Some i) <-> b = Some i) -> (forall a, o = KGetStepper a <-> k = Observes a) ->
  match b with Some j => holds h (OStepper j) | None => True end ->
  inv (h ++ [(o, u)]) (mkRefs (counted (rf_steppers r) b ++ [(1, b)]) (rf_anims r) (rf_lost r))
      (mkAC (ac_steppers c ++ [Some k]) (ac_anims c)) ds.
Proof.
  intros V u A R RB GK HB.
  assert (EA : forall x, acquired (h ++ [(o, u)]) x = acquired h x + b2n (is_obj x (Some (OStepper (length (rf_steppers r))))))
    by (intros x; rewrite acquired_app, A; reflexivity).
  assert (ER : forall x, released (h ++ [(o, u)]) x = released h x) by (intros x; rewrite released_app, R; cbn; lia).
  assert (EO : forall x, x <> OStepper (length (rf_steppers r)) -> own (h ++ [(o, u)]) x = own h x).
  { intros x X. unfold own. rewrite EA, ER, is_obj_neq by exact X. cbn. rewrite PeanoNat.Nat.add_0_r. reflexivity. }
  assert (EL : own (h ++ [(o, u)]) (OStepper (length (rf_steppers r))) = 1).
  { unfold own. rewrite EA, ER, is_obj_refl. cbn [b2n]. pose proof (iv_sout _ _ _ _ V _ (le_n _)).
    pose proof (iv_rel _ _ _ _ V (OStepper (length (rf_steppers r)))). lia. }
  assert (OB : forall i a, observes (h ++ [(o, u)]) i a <-> observes h i a \/ (i = length (rf_steppers r) /\ k = Observes a)).
  { intros i a. unfold observes. rewrite in_app_iff. cbn. rewrite <- (GK a). unfold u.
    split; [intros [X|[X|[]]]|intros [X|[-> ->]]]; auto. injection X as -> <-. auto. }
  assert (RE : forall i j, reverses (h ++ [(o, u)]) j i <-> reverses h j i \/ (j = length (rf_steppers r) /\ b = Some i)).
  { intros i j. unfold reverses. rewrite in_app_iff. cbn. rewrite <- (RB i). unfold u.
    split; [intros [X|[X|[]]]|intros [X|[-> ->]]]; auto. injection X as -> <-. auto. }
  assert (BL : forall j, b = Some j -> j < length (rf_steppers r)).
  { intros j ->. destruct (held_stepper _ _ _ _ _ V HB) as (? & ? & ? & _ & _ & L). exact L. }
  assert (OBL : forall i a, observes h i a -> i < length (rf_steppers r)).
  { intros i a X. apply (iv_obsB _ _ _ _ V) in X. apply nth_lt in X. destruct (iv_kinds _ _ _ _ V) as [L _]. lia. }
  assert (REL : forall i j, reverses h j i -> j < length (rf_steppers r)).
  { intros i j X. destruct (PeanoNat.Nat.lt_ge_cases j (length (rf_steppers r))) as [L|L]; [exact L|].
    pose proof (iv_sout _ _ _ _ V _ L). pose proof (acquired_in _ _ (OStepper j) X eq_refl). lia. }
  destruct V. destruct iv_core0 as (CA & CB & CC). destruct iv_kinds0 as [KL KK].
  assert (DL : dflt ds (length (rf_steppers r)) = 0).
  { unfold dflt. destruct (in_dec _ _ _) as [X|X]; [|reflexivity]. apply iv_ds0 in X. lia. }
  constructor; cbn [rf_steppers rf_anims rf_lost ac_steppers ac_anims]; auto.
  - intros x. rewrite EA, ER. specialize (iv_rel0 x). lia.
  - split; [|split].
    + intros i n b' E. rewrite refs_to_app, counted_refs. cbn [refs_to]. apply nth_snoc in E. rewrite counted_length in E.
      destruct E as [[L E]|[-> E]].
      * apply counted_nth in E. destruct E as (m & E & ->). rewrite EO by (injection; lia). specialize (CA _ _ _ E). lia.
      * injection E as -> ->. rewrite EL, DL. rewrite refs_to_none.
        -- destruct b as [j|]; cbn; [|lia]. specialize (BL _ eq_refl). assert (X : Nat.eqb j (length (rf_steppers r)) = false) by (apply PeanoNat.Nat.eqb_neq; lia).
           rewrite X. lia.
        -- intros j n i E. pose proof (nth_lt _ _ _ E). apply CC in E. lia.
    + intros i L. rewrite app_length, counted_length in L. cbn in L. rewrite EO by (injection; lia). apply CB. lia.
    + intros j n i E. apply nth_snoc in E. rewrite counted_length in E. destruct E as [[L E]|[-> E]].
      * apply counted_nth in E. destruct E as (m & E & ->). apply CC in E. lia.
      * injection E as -> <-. specialize (BL _ eq_refl). lia.
  - split; [rewrite !app_length, counted_length; cbn; lia|]. intros i n b' kk E1 E2. apply nth_snoc in E1. apply nth_snoc in E2.
    rewrite counted_length in E1. destruct E1 as [[L1 E1]|[-> E1]], E2 as [[L2 E2]|[E0 E2]]; try lia.
    + apply counted_nth in E1. destruct E1 as (m & E1 & ->). specialize (KK _ _ _ _ E1 E2). split; [intros X; apply KK; lia|].
      intros X. apply KK in X. subst m. destruct b as [j|]; cbn [ind]; [|reflexivity]. destruct (Nat.eqb j i) eqn:JI; [|reflexivity].
      apply PeanoNat.Nat.eqb_eq in JI. subst j. specialize (CA _ _ _ E1). apply holds_own in HB. lia.
    + injection E1 as -> ->. subst kk. split; [lia|discriminate].
  - intros a n E. rewrite EO by discriminate. auto.
  - intros a L. rewrite EA, is_obj_neq by discriminate. rewrite iv_aout0 by exact L. reflexivity.
  - intros i L. rewrite app_length, counted_length in L. cbn in L. rewrite EA, is_obj_neq by (injection; lia). rewrite iv_sout0 by lia. reflexivity.
  - intros i a E. apply OB. apply nth_snoc in E. destruct E as [[L E]|[-> E]]; [auto|]. injection E as E. right. split; [lia|congruence].
  - intros i a X. apply OB in X. destruct X as [X|[-> ->]].
    + rewrite nth_error_app1; [auto|]. specialize (OBL _ _ X). lia.
    + rewrite KL, nth_error_app2, PeanoNat.Nat.sub_diag by lia. reflexivity.
  - intros i a X. apply OB in X. destruct X as [X|[-> ->]]; [|rewrite EL; lia].
    rewrite EO; [eauto|]. specialize (OBL _ _ X). injection. lia.
  - intros i a n b' E1 E2. apply nth_snoc in E1. apply nth_snoc in E2. rewrite counted_length in E2.
    destruct E1 as [[L1 E1]|[-> E1]], E2 as [[L2 E2]|[E0 E2]]; try lia.
    + apply counted_nth in E2. destruct E2 as (m & E2 & _). eauto.
    + injection E1 as E1. injection E2 as -> ->. symmetry in E1. apply GK in E1. destruct b as [j|]; [|reflexivity].
      pose proof (proj2 (RB j) eq_refl). congruence.
  - intros i j n E. apply RE. apply nth_snoc in E. rewrite counted_length in E. destruct E as [[L E]|[-> E]].
    + apply counted_nth in E. destruct E as (m & E & ->). left. eauto.
    + injection E as -> <-. auto.
  - intros i j n b' X E P. apply nth_snoc in E. rewrite counted_length in E. apply RE in X. destruct E as [[L E]|[-> E]], X as [X|[E' X]]; try lia.
    + apply counted_nth in E. destruct E as (m & E & ->). eapply iv_revB0; eauto.
      destruct m as [|m]; [|lia]. exfalso. destruct b as [j'|]; cbn [ind] in P; [|lia]. destruct (Nat.eqb j' j) eqn:JJ; [|lia].
      apply PeanoNat.Nat.eqb_eq in JJ. subst j'. apply holds_own in HB. specialize (CA _ _ _ E). lia.
    + apply REL in X. lia.
    + injection E as -> ->. exact X.
  - intros i X. rewrite app_length, counted_length. cbn. apply iv_ds0 in X. destruct X as [X1 X2]. split; [lia|].
    rewrite EA, is_obj_neq by (injection; lia). rewrite X2. reflexivity.
Qed.

(** The default stepper of an animation. *)
Lemma inv_default h r c ds : inv h r c ds ->
  inv h (mkRefs (rf_steppers r ++ [(default_references, None)]) (rf_anims r) (rf_lost r))
      (mkAC (ac_steppers c ++ [Some Own]) (ac_anims c)) (length (rf_steppers r) :: ds).
Proof.
  intros V. pose proof (iv_sout _ _ _ _ V _ (le_n _)) as S0. destruct V. destruct iv_core0 as (CA & CB & CC). destruct iv_kinds0 as [KL KK].
  assert (NI : ~ In (length (rf_steppers r)) ds) by (intros X; apply iv_ds0 in X; lia).
  assert (DS : forall i, i <> length (rf_steppers r) -> dflt (length (rf_steppers r) :: ds) i = dflt ds i).
  { intros i X. unfold dflt. destruct (in_dec _ i (_ :: ds)) as [I|I], (in_dec _ i ds) as [J|J]; try reflexivity; exfalso.
    - destruct I as [I|I]; [congruence|auto].
    - apply I. right. exact J. }
  assert (DL : dflt (length (rf_steppers r) :: ds) (length (rf_steppers r)) = 1).
  { unfold dflt. destruct (in_dec _ _ _) as [I|I]; [reflexivity|]. exfalso. apply I. left. reflexivity. }
  constructor; cbn [rf_steppers rf_anims rf_lost ac_steppers ac_anims]; auto.
  - split; [|split].
    + intros i n b E. rewrite refs_to_app. cbn [refs_to ind]. apply nth_snoc in E. destruct E as [[L E]|[-> E]].
      * rewrite DS by lia. specialize (CA _ _ _ E). lia.
      * injection E as -> ->. rewrite DL, refs_to_none.
        -- unfold own. rewrite S0. reflexivity.
        -- intros j n i E. pose proof (nth_lt _ _ _ E). apply CC in E. lia.
    + intros i L. rewrite app_length in L. cbn in L. rewrite DS by lia. apply CB. lia.
    + intros j n i E. apply nth_snoc in E. destruct E as [[L E]|[-> E]]; [eauto|discriminate E].
  - split; [rewrite !app_length; cbn; lia|]. intros i n b' kk E1 E2. apply nth_snoc in E1. apply nth_snoc in E2.
    destruct E1 as [[L1 E1]|[-> E1]], E2 as [[L2 E2]|[E0 E2]]; try lia; [eauto|].
    injection E1 as -> ->. subst kk. split; discriminate.
  - intros i L. rewrite app_length in L. apply iv_sout0. lia.
  - intros i a E. apply nth_snoc in E. destruct E as [[L E]|[-> E]]; [auto|discriminate E].
  - intros i a X. apply iv_obsB0 in X. rewrite nth_error_app1; [exact X|]. eapply nth_lt; eauto.
  - intros i a n b E1 E2. apply nth_snoc in E1. apply nth_snoc in E2. destruct E1 as [[L1 E1]|[-> E1]], E2 as [[L2 E2]|[E0 E2]]; try lia; [eauto|discriminate E1].
  - intros i j n E. apply nth_snoc in E. destruct E as [[L E]|[-> E]]; [eauto|discriminate E].
  - intros i j n b X E P. apply nth_snoc in E. destruct E as [[L E]|[-> E]]; [eauto|].
    pose proof (acquired_in _ _ (OStepper (length (rf_steppers r))) X eq_refl). lia.
  - constructor; assumption.
  - intros i [<-|X]; rewrite app_length; cbn; [split; [lia|exact S0]|]. apply iv_ds0 in X. split; [lia|]. apply X.
Qed.

(** A new animation. *)
Lemma inv_anim h r c ds g lost : inv h r c ds ->
  inv (h ++ [(KNew g, RAnim (length (rf_anims r)))]) (mkRefs (rf_steppers r) (rf_anims r ++ [1]) lost)
      (mkAC (ac_steppers c) (ac_anims c ++ [true])) ds.
Proof.
  intros V. set (p := (KNew g, RAnim (length (rf_anims r)))).
  assert (EA : forall x, acquired (h ++ [p]) x = acquired h x + b2n (is_obj x (Some (OAnim (length (rf_anims r))))))
    by (intros x; rewrite acquired_app; reflexivity).
  assert (ER : forall x, released (h ++ [p]) x = released h x) by (intros x; rewrite released_app; cbn; lia).
  assert (EO : forall x, x <> OAnim (length (rf_anims r)) -> own (h ++ [p]) x = own h x).
  { intros x X. unfold own. rewrite EA, ER, is_obj_neq by exact X. cbn. rewrite PeanoNat.Nat.add_0_r. reflexivity. }
  assert (EL : own (h ++ [p]) (OAnim (length (rf_anims r))) = 1).
  { unfold own. rewrite EA, ER, is_obj_refl. cbn [b2n]. pose proof (iv_aout _ _ _ _ V _ (le_n _)).
    pose proof (iv_rel _ _ _ _ V (OAnim (length (rf_anims r)))). lia. }
  assert (OB : forall i a, observes (h ++ [p]) i a <-> observes h i a).
  { intros i a. unfold observes. rewrite in_app_iff. cbn. split; [intros [X|[X|[]]]; [exact X|discriminate X]|auto]. }
  assert (RE : forall i j, reverses (h ++ [p]) j i <-> reverses h j i).
  { intros i a. unfold reverses. rewrite in_app_iff. cbn. split; [intros [X|[X|[]]]; [exact X|discriminate X]|auto]. }
  destruct V. constructor; cbn [rf_steppers rf_anims rf_lost ac_steppers ac_anims]; auto.
  - intros x. rewrite EA, ER. specialize (iv_rel0 x). lia.
  - eapply core_ext; [|exact iv_core0]. intros i. cbn. rewrite EO by discriminate. reflexivity.
  - rewrite !app_length, iv_alen0. reflexivity.
  - intros a n E. apply nth_snoc in E. destruct E as [[L E]|[-> ->]].
    + rewrite EO by (injection; lia). rewrite nth_error_app1 by lia. auto.
    + rewrite EL. split; [reflexivity|]. rewrite iv_alen0, nth_error_app2, PeanoNat.Nat.sub_diag by lia. reflexivity.
  - intros a L. rewrite app_length in L. cbn in L. rewrite EA, is_obj_neq by (injection; lia). rewrite iv_aout0 by lia. reflexivity.
  - intros i L. rewrite EA, is_obj_neq by discriminate. rewrite iv_sout0 by exact L. reflexivity.
  - intros i a X. apply OB. auto.
  - intros i a X. apply OB in X. auto.
  - intros i a X. apply OB in X. rewrite EO by discriminate. eauto.
  - intros i j n X. apply RE. eauto.
  - intros i j n b X. apply RE in X. eauto.
  - intros i X. rewrite EA, is_obj_neq by discriminate. apply iv_ds0 in X. destruct X as [X1 X2]. rewrite X2. auto.
Qed.

(** The history after a reference was taken or dropped. *)
Lemma hist_ref h x u : let h' := h ++ [(KRef x, u)] in
  (forall y, acquired h' y = acquired h y + b2n (is_obj y (Some x))) /\ (forall y, released h' y = released h y) /\
  (forall i a, observes h' i a <-> observes h i a) /\ (forall i j, reverses h' j i <-> reverses h j i).
Proof.
  intros h'. unfold h'. repeat split.
  - intros y. rewrite acquired_app. reflexivity.
  - intros y. rewrite released_app. cbn. lia.
  - unfold observes. rewrite in_app_iff. intros [X|[X|[]]]; [exact X|discriminate X].
  - unfold observes. rewrite in_app_iff. auto.
  - unfold reverses. rewrite in_app_iff. intros [X|[X|[]]]; [exact X|discriminate X].
  - unfold reverses. rewrite in_app_iff. auto.
Qed.
Lemma hist_unref h x u : let h' := h ++ [(KUnref x, u)] in
  (forall y, released h' y = released h y + b2n (is_obj y (Some x))) /\ (forall y, acquired h' y = acquired h y) /\
  (forall i a, observes h' i a <-> observes h i a) /\ (forall i j, reverses h' j i <-> reverses h j i).
Proof.
  intros h'. unfold h'. repeat split.
  - intros y. rewrite released_app. reflexivity.
  - intros y. rewrite acquired_app. cbn. lia.
  - unfold observes. rewrite in_app_iff. intros [X|[X|[]]]; [exact X|discriminate X].
  - unfold observes. rewrite in_app_iff. auto.
  - unfold reverses. rewrite in_app_iff. intros [X|[X|[]]]; [exact X|discriminate X].
  - unfold reverses. rewrite in_app_iff. auto.
Qed.

Lemma inv_ref_stepper h r c ds i u : inv h r c ds -> holds h (OStepper i) ->
  exists r', take_stepper r i = Ok r' /\ inv (h ++ [(KRef (OStepper i), u)]) r' c ds.
Proof.
  intros V Hd. destruct (held_stepper _ _ _ _ _ V Hd) as (n & b & k & N & K & L).
  unfold take_stepper. rewrite N. eexists. split; [reflexivity|].
  destruct (hist_ref h (OStepper i) u) as (EA & ER & OB & RE). set (h' := h ++ [(KRef (OStepper i), u)]) in *.
  assert (EO : forall x, x <> OStepper i -> own h' x = own h x).
  { intros x X. unfold own. rewrite EA, ER, is_obj_neq by exact X. cbn. rewrite PeanoNat.Nat.add_0_r. reflexivity. }
  assert (EL : own h' (OStepper i) = S (own h (OStepper i))).
  { unfold own. rewrite EA, ER, is_obj_refl. cbn [b2n]. pose proof (iv_rel _ _ _ _ V (OStepper i)). lia. }
  assert (RT : forall k, refs_to (list_set i (S (S n), b) (rf_steppers r)) k = refs_to (rf_steppers r) k).
  { intros k0. pose proof (refs_to_set _ _ _ _ (S (S n)) b k0 N). lia. }
  destruct V. destruct iv_core0 as (CA & CB & CC). destruct iv_kinds0 as [KL KK].
  constructor; cbn [rf_steppers rf_anims rf_lost ac_steppers ac_anims]; try rewrite list_set_length; auto.
  - intros x. rewrite EA, ER. specialize (iv_rel0 x). lia.
  - split; [|split].
    + intros j m b' E. rewrite RT. apply nth_set in E. destruct E as [(-> & E & _)|[NE E]].
      * injection E as -> ->. rewrite EL. specialize (CA _ _ _ N). lia.
      * rewrite EO by congruence. eauto.
    + intros j Lj. rewrite list_set_length in Lj. rewrite EO by (injection; lia). auto.
    + intros j m j' E. apply nth_set in E. destruct E as [(-> & E & _)|[NE E]]; [|eauto]. injection E as -> <-. specialize (CC _ _ _ N). lia.
  - split; [rewrite list_set_length; exact KL|]. intros j m b' kk E1 E2. apply nth_set in E1. destruct E1 as [(-> & E1 & _)|[NE E1]]; [|eauto].
    injection E1 as -> ->. specialize (KK _ _ _ _ N E2). split; [lia|]. intros X. apply KK in X. lia.
  - intros a m E. rewrite EO by discriminate. auto.
  - intros a La. rewrite EA, is_obj_neq by discriminate. rewrite iv_aout0 by exact La. reflexivity.
  - intros j Lj. rewrite EA, is_obj_neq by (injection; lia). rewrite iv_sout0 by exact Lj. reflexivity.
  - intros j a X. apply OB. auto.
  - intros j a X. apply OB in X. auto.
  - intros j a X. apply OB in X. apply iv_obsC0 in X. destruct (PeanoNat.Nat.eq_dec j i) as [->|NE]; [lia|]. rewrite EO by congruence. exact X.
  - intros j a m b' E1 E2. apply nth_set in E2. destruct E2 as [(-> & E2 & _)|[NE E2]]; [|eauto]. injection E2 as -> ->. eauto.
  - intros j j' m X. apply RE. apply nth_set in X. destruct X as [(-> & X & _)|[NE X]]; [|eauto]. injection X as -> <-. eauto.
  - intros j j' m b' X E P. apply RE in X. apply nth_set in E. destruct E as [(-> & E & _)|[NE E]]; [|eauto].
    injection E as -> ->. eapply iv_revB0; eauto. lia.
  - intros j X. apply iv_ds0 in X. destruct X as [X1 X2]. split; [lia|].
    assert (j <> i) by (intros ->; unfold holds in Hd; lia). rewrite EA, is_obj_neq by congruence. rewrite X2. reflexivity.
Qed.

Lemma inv_ref_anim h r c ds a u : inv h r c ds -> holds h (OAnim a) ->
  exists r', take_anim r a = Ok r' /\ inv (h ++ [(KRef (OAnim a), u)]) r' c ds.
Proof.
  intros V Hd. destruct (held_anim _ _ _ _ _ V Hd) as (n & N & P).
  unfold take_anim. rewrite N. eexists. split; [reflexivity|].
  destruct (hist_ref h (OAnim a) u) as (EA & ER & OB & RE). set (h' := h ++ [(KRef (OAnim a), u)]) in *.
  assert (EO : forall x, x <> OAnim a -> own h' x = own h x).
  { intros x X. unfold own. rewrite EA, ER, is_obj_neq by exact X. cbn. rewrite PeanoNat.Nat.add_0_r. reflexivity. }
  assert (EL : own h' (OAnim a) = S (own h (OAnim a))).
  { unfold own. rewrite EA, ER, is_obj_refl. cbn [b2n]. pose proof (iv_rel _ _ _ _ V (OAnim a)). lia. }
  pose proof (nth_lt _ _ _ N) as L.
  destruct V. constructor; cbn [rf_steppers rf_anims rf_lost ac_steppers ac_anims]; try rewrite list_set_length; auto.
  - intros x. rewrite EA, ER. specialize (iv_rel0 x). lia.
  - eapply core_ext; [|exact iv_core0]. intros i. cbn. rewrite EO by discriminate. reflexivity.
  - intros b m E. apply nth_set in E. destruct E as [(-> & -> & _)|[NE E]].
    + rewrite EL. destruct (iv_anims0 _ _ N) as [<- X]. split; [reflexivity|exact X].
    + rewrite EO by congruence. auto.
  - intros b Lb. rewrite EA, is_obj_neq by (injection; lia). rewrite iv_aout0 by exact Lb. reflexivity.
  - intros i Li. rewrite EA, is_obj_neq by discriminate. rewrite iv_sout0 by exact Li. reflexivity.
  - intros i b X. apply OB. auto.
  - intros i b X. apply OB in X. auto.
  - intros i b X. apply OB in X. rewrite EO by discriminate. eauto.
  - intros i j m X. apply RE. eauto.
  - intros i j m b X. apply RE in X. eauto.
  - intros i X. rewrite EA, is_obj_neq by discriminate. apply iv_ds0 in X. destruct X as [X1 X2]. rewrite X2. auto.
Qed.

Lemma inv_unref_anim h r c ds a u : inv h r c ds -> holds h (OAnim a) ->
  exists r' calls, drop_anim (F := F) (D := D) r a = Ok (r', calls) /\ aeach acareful c calls /\
    inv (h ++ [(KUnref (OAnim a), u)]) r' (fold_left (aclient_do (F := F) (D := D)) calls c) ds.
Proof.
  intros V Hd. destruct (held_anim _ _ _ _ _ V Hd) as (n & N & P).
  destruct (hist_unref h (OAnim a) u) as (ER & EA & OB & RE). set (h' := h ++ [(KUnref (OAnim a), u)]) in *.
  assert (EO : forall x, x <> OAnim a -> own h' x = own h x).
  { intros x X. unfold own. rewrite EA, ER, is_obj_neq by exact X. cbn. rewrite PeanoNat.Nat.add_0_r. reflexivity. }
  assert (EL : own h' (OAnim a) = own h (OAnim a) - 1).
  { unfold own. rewrite EA, ER, is_obj_refl. cbn [b2n]. lia. }
  pose proof (nth_lt _ _ _ N) as L. destruct (iv_anims _ _ _ _ V _ _ N) as [En _].
  assert (X : drop_anim (F := F) (D := D) r a = Ok (mkRefs (rf_steppers r) (list_set a n (rf_anims r)) (rf_lost r), match n with O => [AFinalize a] | S _ => [] end)).
  { unfold drop_anim. rewrite N. destruct n; reflexivity. }
  eexists. eexists. split; [exact X|]. split; [destruct n; cbn; auto|].
  set (c' := fold_left _ _ c).
  assert (C1 : ac_steppers c' = ac_steppers c) by (unfold c'; destruct n; reflexivity).
  assert (C2 : ac_anims c' = list_set a (Nat.ltb 0 n) (ac_anims c)).
  { unfold c'. destruct n; cbn; [reflexivity|]. symmetry. apply list_set_same. exact P. }
  destruct V. constructor; cbn [rf_steppers rf_anims rf_lost]; rewrite ?C1, ?C2, ?list_set_length; auto.
  - intros x. rewrite EA, ER. specialize (iv_rel0 x). unfold holds in Hd. destruct (gobj_dec x (OAnim a)) as [->|NE].
    + rewrite is_obj_refl. cbn [b2n]. lia.
    + rewrite is_obj_neq by exact NE. cbn [b2n]. lia.
  - eapply core_ext; [|exact iv_core0]. intros i. cbn. rewrite EO by discriminate. reflexivity.
  - intros b m E. apply nth_set in E. destruct E as [(-> & -> & _)|[NE E]].
    + rewrite EL. split; [lia|]. apply nth_set_eq. lia.
    + rewrite EO by congruence. rewrite nth_set_neq by exact NE. auto.
  - intros b Lb. rewrite EA. auto.
  - intros i Li. rewrite EA. auto.
  - intros i b E. apply OB. auto.
  - intros i b E. apply OB in E. auto.
  - intros i b E. apply OB in E. rewrite EO by discriminate. eauto.
  - intros i j m E. apply RE. eauto.
  - intros i j m b E. apply RE in E. eauto.
  - intros i E. rewrite EA. auto.
Qed.

Lemma inv_unref_stepper h r c ds i u : inv h r c ds -> holds h (OStepper i) ->
  (forall a, observes h i a -> holds_two h (OStepper i)) ->
  exists r' calls, drop_stepper (F := F) (D := D) (S i) r i = Ok (r', calls) /\ aeach acareful c calls /\
    inv (h ++ [(KUnref (OStepper i), u)]) r' (fold_left (aclient_do (F := F) (D := D)) calls c) ds.
Proof.
  intros V Hd TW. destruct r as [l an lost].
  destruct (hist_unref h (OStepper i) u) as (ER & EA & OB & RE). set (h' := h ++ [(KUnref (OStepper i), u)]) in *.
  assert (EO : forall x, x <> OStepper i -> own h' x = own h x).
  { intros x X. unfold own. rewrite EA, ER, is_obj_neq by exact X. cbn. rewrite PeanoNat.Nat.add_0_r. reflexivity. }
  assert (EL : own h' (OStepper i) = own h (OStepper i) - 1).
  { unfold own. rewrite EA, ER, is_obj_refl. cbn [b2n]. lia. }
  set (f := fun i => own h (OStepper i) + dflt ds i).
  assert (Fi : 0 < f i) by (apply holds_own in Hd; unfold f; lia).
  assert (Di : dflt ds i = 0).
  { unfold dflt. destruct (in_dec _ _ _) as [X|X]; [|reflexivity]. apply (iv_ds _ _ _ _ V) in X. unfold holds in Hd. lia. }
  assert (FU : forall k, upd f i (f i - 1) k = own h' (OStepper k) + dflt ds k).
  { intros k. destruct (PeanoNat.Nat.eq_dec k i) as [->|NE].
    - rewrite upd_same, EL. unfold f. apply holds_own in Hd. lia.
    - rewrite upd_other by exact NE. rewrite EO by congruence. reflexivity. }
  destruct (drop_ok (S i) l an lost f c i (iv_core _ _ _ _ V) (iv_kinds _ _ _ _ V) Fi (le_n _))
    as (l' & calls & E & CO & KI & AN & AC & LE & (S1 & S2 & S3) & _ & _).
  { intros k a Ka. rewrite FU. apply (iv_obsA _ _ _ _ V) in Ka. pose proof (iv_obsC _ _ _ _ V _ _ Ka) as Q.
    destruct (PeanoNat.Nat.eq_dec k i) as [->|NE]; [|rewrite EO by congruence; lia].
    rewrite EL. specialize (TW _ Ka). unfold holds_two, own in *. lia. }
  exists (mkRefs l' an lost), calls. split; [exact E|]. split; [exact AC|].
  set (c' := fold_left _ calls c) in *.
  assert (CO' : core l' (fun k => own h' (OStepper k) + dflt ds k)) by (eapply core_ext; [exact FU|exact CO]).
  assert (OB3 : forall j a, observes h j a -> 0 < own h' (OStepper j)).
  { intros j a X. pose proof (iv_obsC _ _ _ _ V _ _ X) as Q. destruct (PeanoNat.Nat.eq_dec j i) as [->|NE]; [|rewrite EO by congruence; exact Q].
    rewrite EL. specialize (TW _ X). unfold holds_two, own in *. lia. }
  destruct V. cbn [rf_steppers rf_anims rf_lost] in *. constructor; cbn [rf_steppers rf_anims rf_lost]; rewrite ?AN, ?LE; auto.
  - intros x. rewrite EA, ER. specialize (iv_rel0 x). unfold holds in Hd. destruct (gobj_dec x (OStepper i)) as [->|NE].
    + rewrite is_obj_refl. cbn [b2n]. lia.
    + rewrite is_obj_neq by exact NE. cbn [b2n]. lia.
  - intros a n X. rewrite EO by discriminate. auto.
  - intros a La. rewrite EA. auto.
  - intros j Lj. rewrite EA. auto.
  - intros j a X. apply OB. auto.
  - intros j a X. apply OB in X. pose proof (OB3 _ _ X) as Q. apply iv_obsB0 in X. destruct (S3 _ _ X) as [Y|Y]; [exact Y|].
    exfalso. pose proof (nth_lt _ _ _ Y) as Lj. destruct KI as [KL KK].
    destruct (nth_error l' j) as [[n b]|] eqn:N; [|apply nth_error_None in N; lia].
    destruct CO' as (CA & _). specialize (CA _ _ _ N). cbn in CA. specialize (KK _ _ _ _ N Y). destruct KK as [_ KK]. specialize (KK eq_refl). lia.
  - intros j a X. apply OB in X. eauto.
  - intros j a n b X Y. pose proof (S2 _ _ X) as X0. destruct KI as [_ KK]. specialize (KK _ _ _ _ Y X).
    assert (P : 0 < n) by (destruct n; [|lia]; destruct KK as [KK _]; specialize (KK eq_refl); discriminate KK).
    destruct (S1 _ _ _ Y P) as (m & Z & _). eauto.
  - intros j k n X. apply RE. destruct CO' as (_ & _ & CC). pose proof (CC _ _ _ X) as [_ P]. destruct (S1 _ _ _ X P) as (m & Y & _). eauto.
  - intros j k n b X Y P. apply RE in X. destruct (S1 _ _ _ Y P) as (m & Z & Pm). eauto.
  - intros j X. rewrite EA. auto.
Qed.

Lemma arg_same (g : gargs F D) : stepper_arg g = args_stepper g.
Proof. destruct g; reflexivity. Qed.
Lemma arg_with (g : gargs F D) i : stepper_arg (with_stepper g i) = Some i.
Proof. destruct g; reflexivity. Qed.

(** ** One call *)

Lemma step_inv h r c ds (o : kop F D) : inv h r c ds -> careful h o ->
  exists r' calls ds', ref_do r o = Ok (r', calls) /\ aeach acareful c calls /\
    length ds' = length ds + b2n (without_stepper o) /\
    forall u, out_ok r o u -> inv (h ++ [(o, u)]) r' (fold_left (aclient_do (F := F) (D := D)) calls c) ds'.
Proof.
  intros V C. destruct o as [n|b|g|[i|a]|[i|a]|i ms|a ms|a i|a|a nm v|a nm v]; cbn [ref_do careful out_ok without_stepper] in *.
  - eexists; eexists; exists ds. split; [reflexivity|]. split; [cbn; auto|]. split; [cbn; lia|]. intros u ->.
    apply (inv_new h r c ds (KNewLinear n) None Own V); auto; try reflexivity; split; discriminate.
  - assert (T : match b with Some j => take_stepper r j | None => Ok r end = Ok (mkRefs (counted (rf_steppers r) b) (rf_anims r) (rf_lost r))).
    { destruct b as [j|]; [|destruct r; reflexivity]. destruct C as [Hd _]. destruct (held_stepper _ _ _ _ _ V Hd) as (n & b & k & N & _).
      unfold take_stepper, counted. rewrite N. reflexivity. }
    rewrite T. cbn [bind rf_steppers rf_anims rf_lost]. eexists; eexists; exists ds. split; [reflexivity|].
    split; [cbn; split; [eapply can_use_null; eauto|auto]|]. split; [cbn; lia|]. intros u ->.
    apply (inv_new h r c ds (KNewReverse b) b Own V); auto; try reflexivity.
    + intros i. split; [intros E; injection E; auto|intros ->; reflexivity].
    + split; discriminate.
    + destruct b as [j|]; [apply C|exact I].
  - destruct (args_stepper g) as [i|] eqn:G.
    + eexists; eexists; exists ds. split; [reflexivity|]. split.
      * cbn. split; [|auto]. rewrite arg_same, G. cbn. eapply can_use_usable; eauto.
      * split; [cbn; lia|]. intros u ->. apply inv_anim. exact V.
    + eexists; eexists; exists (length (rf_steppers r) :: ds). split; [reflexivity|]. split; [|split; [cbn; lia|]].
      * cbn [aeach acareful fold_left]. split; [exact I|]. split; [|exact I]. rewrite arg_with. cbn. left. cbn.
        destruct (iv_kinds _ _ _ _ V) as [L _]. rewrite L, nth_error_app2, PeanoNat.Nat.sub_diag by lia. reflexivity.
      * intros u ->. apply (inv_anim h (mkRefs (rf_steppers r ++ [(default_references, None)]) (rf_anims r) (rf_lost r))
          (mkAC (ac_steppers c ++ [Some Own]) (ac_anims c))). apply inv_default. exact V.
  - destruct (inv_ref_stepper h r c ds i RNone V C) as (r' & E & _). rewrite E. eexists; eexists; exists ds. split; [reflexivity|].
    split; [exact I|]. split; [cbn; lia|]. intros u _. destruct (inv_ref_stepper h r c ds i u V C) as (r'' & E' & V'). cbn. congruence.
  - destruct (inv_ref_anim h r c ds a RNone V C) as (r' & E & _). rewrite E. eexists; eexists; exists ds. split; [reflexivity|].
    split; [exact I|]. split; [cbn; lia|]. intros u _. destruct (inv_ref_anim h r c ds a u V C) as (r'' & E' & V'). cbn. congruence.
  - destruct C as [Hd TW]. assert (TW' : forall a, observes h i a -> holds_two h (OStepper i)) by (intros a; apply TW; reflexivity).
    destruct (inv_unref_stepper h r c ds i RNone V Hd TW') as (r' & calls & E & A & _). exists r', calls, ds. split; [exact E|].
    split; [exact A|]. split; [cbn; lia|]. intros u _.
    destruct (inv_unref_stepper h r c ds i u V Hd TW') as (r'' & calls' & E' & A' & V'). congruence.
  - destruct C as [Hd _]. destruct (inv_unref_anim h r c ds a RNone V Hd) as (r' & calls & E & A & _). exists r', calls, ds. split; [exact E|].
    split; [exact A|]. split; [cbn; lia|]. intros u _.
    destruct (inv_unref_anim h r c ds a u V Hd) as (r'' & calls' & E' & A' & V'). congruence.
  - eexists; eexists; exists ds. split; [reflexivity|]. split; [cbn; split; [eapply can_use_usable; eauto|auto]|]. split; [cbn; lia|].
    intros u _. apply inv_frame; auto; discriminate.
  - eexists; eexists; exists ds. split; [reflexivity|]. destruct (held_anim _ _ _ _ _ V C) as (n & _ & P).
    split; [cbn; auto|]. split; [cbn; lia|]. intros u _. apply inv_frame; auto; discriminate.
  - eexists; eexists; exists ds. split; [reflexivity|]. destruct C as [C (j & -> & U)]. destruct (held_anim _ _ _ _ _ V C) as (n & _ & P).
    split; [cbn; split; [split; [exact P|exists j; split; [reflexivity|eapply can_use_usable; eauto]]|auto]|]. split; [cbn; lia|].
    intros u _. apply inv_frame; auto; discriminate.
  - eexists; eexists; exists ds. split; [reflexivity|]. destruct (held_anim _ _ _ _ _ V C) as (n & _ & P).
    split; [cbn; auto|]. split; [cbn; lia|]. intros u ->.
    apply (inv_new h r c ds (KGetStepper a) None (Observes a) V); auto; try reflexivity; split; try discriminate; intros E; injection E as ->; reflexivity.
  - eexists; eexists; exists ds. split; [reflexivity|]. destruct (held_anim _ _ _ _ _ V C) as (n & _ & P).
    split; [cbn; auto|]. split; [cbn; lia|]. intros u _. apply inv_frame; auto; discriminate.
  - eexists; eexists; exists ds. split; [reflexivity|]. destruct C as [C U]. destruct (held_anim _ _ _ _ _ V C) as (n & _ & P).
    split; [cbn; split; [split; [exact P|]|auto]|].
    + destruct v; auto. destruct U as (j & -> & U). exists j. split; [reflexivity|]. eapply can_use_usable; eauto.
    + split; [cbn; lia|]. intros u _. apply inv_frame; auto; discriminate.
Qed.

Lemma call_out w c h r ds (o : kop F D) r' calls w' us : inv h r c ds -> arel w c -> ref_do r o = Ok (r', calls) ->
  ga_run w calls = Ok (w', us) -> out_ok r o (last us RNone).
Proof.
  intros V [R1 R2] E G.
  assert (L1 : length (ga_steppers w) = length (rf_steppers r)).
  { destruct (iv_kinds _ _ _ _ V) as [L _]. rewrite L, R1, map_length. reflexivity. }
  assert (L2 : length (ga_anims w) = length (rf_anims r)).
  { rewrite (iv_alen _ _ _ _ V), R2, map_length. reflexivity. }
  destruct o as [n|b|g|x|x|i ms|a ms|a i|a|a nm v|a nm v]; cbn [ref_do out_ok] in *; auto.
  - injection E as <- <-. apply run_cons in G. destruct G as (w1 & u & us' & G & X & ->). injection X as <- <-.
    apply ga_do_cases in G. destruct G as [_ ->]. cbn. rewrite L1. reflexivity.
  - destruct (match b with Some j => take_stepper r j | None => Ok r end) as [r1|]; [|discriminate E]. injection E as <- <-.
    apply run_cons in G. destruct G as (w1 & u & us' & G & X & ->). injection X as <- <-.
    apply ga_do_cases in G. destruct G as [-> _]. cbn. rewrite L1. reflexivity.
  - destruct (args_stepper g).
    + injection E as <- <-. apply run_cons in G. destruct G as (w1 & u & us' & G & X & ->). injection X as <- <-.
      apply ga_do_cases in G. destruct G as (x & _ & -> & _). cbn. rewrite L2. reflexivity.
    + injection E as <- <-. apply run_cons in G. destruct G as (w1 & u & us' & G1 & G & ->).
      apply run_cons in G. destruct G as (w2 & u2 & us2 & G & X & ->). injection X as <- <-.
      apply ga_do_cases in G1. destruct G1 as [-> _].
      apply ga_do_cases in G. destruct G as (x & _ & -> & _). cbn. rewrite L2. reflexivity.
  - injection E as <- <-. apply run_cons in G. destruct G as (w1 & u & us' & G & X & ->). injection X as <- <-.
    apply ga_do_cases in G. destruct G as (x & _ & -> & _). cbn. rewrite L1. reflexivity.
Qed.

(** What a reachable state looks like. *)
Definition kinv h (k : kworld F D) : Prop :=
  all_steppable (k_world k) /\
  exists c ds, arel (k_world k) c /\ inv h (k_refs k) c ds /\ length ds = length (filter without_stepper (map fst h)).

Lemma kinv_start : kinv [] k_start.
Proof. split; [apply start_steppable|]. exists aclient_start, []. split; [apply arel_start|]. split; [apply inv_start|reflexivity]. Qed.

Lemma kinv_step h k o : kinv h k -> careful h o ->
  (forall k' u, k_do k o = Ok (k', u) -> kinv (h ++ [(o, u)]) k') /\
  (forall e, k_do k o = Err e -> harmless e) /\
  (match o with KNew g => good_resolution g | _ => True end -> exists r, k_do k o = Ok r).
Proof.
  intros (AS & c & ds & R & V & DC) C. destruct (step_inv _ _ _ _ _ V C) as (r' & calls & ds' & E & A & L & K).
  unfold k_do. rewrite E. cbn [bind fst snd].
  split; [|split].
  - intros k' u X. destruct (ga_run (k_world k) calls) as [[w' us]|] eqn:G; [|discriminate X]. cbn [bind fst snd] in X. injection X as <- <-.
    split; [cbn [k_world]; eapply run_steppable; eauto|]. exists (fold_left aclient_do calls c), ds'.
    split; [eapply arel_run; eauto|]. split; [apply K; eapply call_out; eauto|].
    rewrite map_app, filter_app, app_length. cbn. rewrite L, DC. destruct (without_stepper o); reflexivity.
  - intros e X. destruct (ga_run (k_world k) calls) as [[w' us]|e'] eqn:G; [discriminate X|]. cbn [bind] in X. injection X as <-.
    eapply careful_run; eauto.
  - intros GR. destruct (careful_run_ok calls (k_world k) c R AS A) as (w' & us & G).
    + destruct o as [n|b|g|[i|a]|[i|a]|i ms|a ms|a i|a|a nm v|a nm v]; cbn [ref_do] in E;
        try (injection E as <- <-; repeat constructor; fail).
      * destruct (match b with Some j => take_stepper (k_refs k) j | None => Ok (k_refs k) end) as [r1|]; [|discriminate E]. injection E as <- <-. repeat constructor.
      * destruct (args_stepper g) as [i|].
        -- injection E as <- <-. repeat constructor. exact GR.
        -- injection E as <- <-. repeat constructor. destruct g; exact GR.
      * destruct (take_stepper (k_refs k) i); [|discriminate E]. injection E as <- <-. constructor.
      * destruct (take_anim (k_refs k) a); [|discriminate E]. injection E as <- <-. constructor.
      * clear - E. revert calls r' E. generalize (k_refs k) as r. generalize (S i) as fuel. intros fuel. revert i.
        induction fuel as [|fuel IH]; intros i r calls r' E; [discriminate E|]. cbn [drop_stepper] in E.
        destruct (nth_error (rf_steppers r) i) as [[[|[|n]] [j|]]|]; try discriminate E.
        -- destruct (drop_stepper fuel _ j) as [[r1 cs]|] eqn:X; [|discriminate E]. injection E as <- <-. cbn [snd].
           apply Forall_app. split; [eapply IH; eauto|repeat constructor].
        -- injection E as <- <-. repeat constructor.
        -- injection E as <- <-. constructor.
        -- injection E as <- <-. constructor.
      * unfold drop_anim in E. destruct (nth_error (rf_anims (k_refs k)) a) as [[|[|n]]|]; try discriminate E; injection E as <- <-; repeat constructor.
    + rewrite G. cbn. eauto.
Qed.

(** ** Histories *)

Lemma k_run_cons k o t k' us : k_run k (o :: t) = Ok (k', us) ->
  exists k1 u us1, k_do k o = Ok (k1, u) /\ k_run k1 t = Ok (k', us1) /\ us = u :: us1.
Proof.
  cbn [k_run]. destruct (k_do k o) as [[k1 u]|]; [|discriminate]. cbn [bind fst snd].
  destruct (k_run k1 t) as [[k2 us1]|] eqn:X; [|discriminate]. intros E. injection E as <- <-. exists k1, u, us1. split; [reflexivity|split; [exact X|reflexivity]].
Qed.
Lemma k_run_snoc l : forall k o k1 us1 k2 u, k_run k l = Ok (k1, us1) -> k_do k1 o = Ok (k2, u) -> k_run k (l ++ [o]) = Ok (k2, us1 ++ [u]).
Proof.
  induction l as [|x t IH]; intros k o k1 us1 k2 u E D1.
  - injection E as <- <-. cbn. rewrite D1. reflexivity.
  - apply k_run_cons in E. destruct E as (k3 & v & us & E1 & E2 & ->). cbn [app k_run]. rewrite E1. cbn [bind fst snd].
    rewrite (IH _ _ _ _ _ _ E2 D1). reflexivity.
Qed.
Lemma k_run_length l : forall k k' us, k_run k l = Ok (k', us) -> length us = length l.
Proof.
  induction l as [|x t IH]; intros k k' us E; [injection E as <- <-; reflexivity|].
  apply k_run_cons in E. destruct E as (k3 & v & us1 & E1 & E2 & ->). cbn. erewrite IH; eauto.
Qed.
Lemma combine_snoc {A B} (l : list A) : forall (m : list B) a b, length l = length m -> combine (l ++ [a]) (m ++ [b]) = combine l m ++ [(a, b)].
Proof. induction l as [|x t IH]; intros [|y m] a b L; try discriminate L; [reflexivity|]. cbn. rewrite IH by (cbn in L; lia). reflexivity. Qed.

Lemma run_kinv post : forall pre k us, k_run k_start pre = Ok (k, us) -> kinv (combine pre us) k ->
  careful_history (pre ++ post) ->
  (forall k' vs, k_run k post = Ok (k', vs) -> kinv (combine (pre ++ post) (us ++ vs)) k') /\
  (forall e, k_run k post = Err e -> harmless e) /\
  (Forall (fun o => match o with KNew g => good_resolution g | _ => True end) post -> exists k' vs, k_run k post = Ok (k', vs)).
Proof.
  induction post as [|o t IH]; intros pre k us E V C.
  - split; [|split]; cbn.
    + intros k' vs X. injection X as <- <-. rewrite !app_nil_r. exact V.
    + discriminate.
    + eauto.
  - pose proof (C pre o t k us eq_refl E) as CO. destruct (kinv_step _ _ _ V CO) as (S1 & S2 & S3). pose proof (k_run_length _ _ _ _ E) as L.
    assert (IH' : forall k1 u, k_do k o = Ok (k1, u) ->
      (forall k' vs, k_run k1 t = Ok (k', vs) -> kinv (combine (pre ++ o :: t) (us ++ u :: vs)) k') /\
      (forall e, k_run k1 t = Err e -> harmless e) /\
      (Forall (fun o => match o with KNew g => good_resolution g | _ => True end) t -> exists k' vs, k_run k1 t = Ok (k', vs))).
    { intros k1 u X. destruct (IH (pre ++ [o]) k1 (us ++ [u])) as (I1 & I2 & I3).
      - eapply k_run_snoc; eauto.
      - rewrite combine_snoc by congruence. auto.
      - rewrite <- app_assoc. exact C.
      - split; [|auto]. intros k' vs Y. specialize (I1 _ _ Y). rewrite <- !app_assoc in I1. exact I1. }
    split; [|split].
    + intros k' vs X. apply k_run_cons in X. destruct X as (k1 & u & vs1 & X1 & X2 & ->). apply (IH' _ _ X1). exact X2.
    + intros e X. cbn [k_run] in X. destruct (k_do k o) as [[k1 u]|e1] eqn:Y.
      * cbn [bind fst snd] in X. destruct (k_run k1 t) as [[? ?]|] eqn:Z; [discriminate X|]. injection X as <-. eapply (IH' _ _ eq_refl); eauto.
      * injection X as <-. auto.
    + intros G. inversion G as [|? ? G1 G2]; subst. destruct (S3 G1) as ([k1 u] & Y). destruct (IH' _ _ Y) as (_ & _ & I3).
      destruct (I3 G2) as (k' & vs & Z). cbn [k_run]. rewrite Y. cbn [bind fst snd]. rewrite Z. cbn. eauto.
Qed.

Lemma careful_kinv ops k us : careful_history ops -> k_run k_start ops = Ok (k, us) -> kinv (combine ops us) k.
Proof. intros C E. destruct (run_kinv ops [] k_start [] eq_refl kinv_start C) as (A & _). apply (A _ _ E). Qed.

(** ** What is alive *)

Lemma refs_to_pos l j n i : nth_error l j = Some (n, Some i) -> 0 < refs_to l i.
Proof.
  revert j. induction l as [|[m b] t IH]; intros [|j] E; try discriminate E; cbn.
  - injection E as -> ->. cbn. rewrite PeanoNat.Nat.eqb_refl. lia.
  - specialize (IH _ E). lia.
Qed.

Definition alive c (x : gobj) : Prop :=
  match x with OStepper i => exists k, nth_error (ac_steppers c) i = Some (Some k) | OAnim a => present c a end.

Lemma alive_now (w : gaworld F D) c x : arel w c -> (exists_now w x <-> alive c x).
Proof.
  intros [R1 R2]. destruct x as [i|a]; cbn.
  - rewrite R1, nth_error_map. split.
    + intros (s & E & N). rewrite E. destruct s; cbn; [eauto|eauto|congruence].
    + intros (k & E). destruct (nth_error (ga_steppers w) i) as [s|]; [|discriminate E]. exists s. split; [reflexivity|]. intros ->. discriminate E.
  - unfold present. rewrite R2, nth_error_map. split.
    + intros (y & E). rewrite E. reflexivity.
    + destruct (nth_error (ga_anims w) a) as [[y|]|]; try discriminate. eauto.
Qed.

Lemma alive_count h r c ds i : inv h r c ds -> (alive c (OStepper i) <-> exists n b, nth_error (rf_steppers r) i = Some (S n, b)).
Proof.
  intros V. destruct (iv_kinds _ _ _ _ V) as [L K]. split.
  - intros (k & E). pose proof (nth_lt _ _ _ E) as Li. destruct (nth_error (rf_steppers r) i) as [[n b]|] eqn:N; [|apply nth_error_None in N; lia].
    specialize (K _ _ _ _ N E). destruct n; [|eauto]. destruct K as [K _]. specialize (K eq_refl). discriminate K.
  - intros (n & b & N). destruct (kinds_nth _ _ _ _ _ (iv_kinds _ _ _ _ V) N) as [k E]. specialize (K _ _ _ _ N E).
    destruct k as [k|]; [exists k; exact E|]. destruct K as [_ K]. specialize (K eq_refl). discriminate K.
Qed.

Lemma kept_alive h r c ds x : inv h r c ds -> kept h x -> alive c x.
Proof.
  intros V K. induction K as [x Hd|i j RE K IH].
  - destruct x as [i|a].
    + destruct (held_stepper _ _ _ _ _ V Hd) as (n & b & k & _ & E & _). exists k. exact E.
    + destruct (held_anim _ _ _ _ _ V Hd) as (n & _ & P). exact P.
  - apply (alive_count _ _ _ _ _ V) in IH. destruct IH as (n & b & N).
    assert (b = Some i) by (eapply (iv_revB _ _ _ _ V); eauto; lia). subst b.
    destruct (iv_core _ _ _ _ V) as (CA & _ & CC). pose proof (CC _ _ _ N) as [L _]. pose proof (nth_lt _ _ _ N) as Lj.
    apply (alive_count _ _ _ _ _ V). destruct (nth_error (rf_steppers r) i) as [[m b]|] eqn:M; [|apply nth_error_None in M; lia].
    specialize (CA _ _ _ M). cbn in CA. pose proof (refs_to_pos _ _ _ _ N). destruct m; [lia|eauto].
Qed.

Lemma alive_kept h r c ds : inv h r c ds -> forall d i, length (rf_steppers r) - i <= d ->
  alive c (OStepper i) -> kept h (OStepper i) \/ In i ds.
Proof.
  intros V. induction d as [|d IH]; intros i L A; apply (alive_count _ _ _ _ _ V) in A; destruct A as (n & b & N).
  - apply nth_lt in N. lia.
  - destruct (iv_core _ _ _ _ V) as (CA & _ & CC). specialize (CA _ _ _ N). cbn in CA.
    destruct (PeanoNat.Nat.eq_dec (own h (OStepper i)) 0) as [E|E]; [|left; apply kept_by_client, holds_own; lia].
    destruct (in_dec PeanoNat.Nat.eq_dec i ds) as [I|I]; [right; exact I|].
    assert (Z : dflt ds i = 0) by (unfold dflt; destruct (in_dec _ i ds); [contradiction|reflexivity]).
    destruct (refs_to_some (rf_steppers r) i) as (j & m & M); [lia|].
    pose proof (CC _ _ _ M) as [Lj Pm]. pose proof (iv_revA _ _ _ _ V _ _ _ M) as RE.
    destruct (IH j) as [K|K].
    + apply nth_lt in M. lia.
    + apply (alive_count _ _ _ _ _ V). destruct m; [lia|eauto].
    + left. eapply kept_by_reverse; eauto.
    + apply (iv_ds _ _ _ _ V) in K. pose proof (acquired_in _ _ (OStepper j) RE eq_refl). lia.
Qed.

Lemma alive_iff h r c ds x : inv h r c ds -> 0 < acquired h x -> (alive c x <-> kept h x).
Proof.
  intros V P. split; [|eapply kept_alive; eauto]. intros A. destruct x as [i|a].
  - destruct (alive_kept _ _ _ _ V _ _ (le_n _) A) as [K|K]; [exact K|]. apply (iv_ds _ _ _ _ V) in K. lia.
  - apply kept_by_client, holds_own. cbn in A. unfold present in A. pose proof (nth_lt _ _ _ A) as L. rewrite <- (iv_alen _ _ _ _ V) in L.
    destruct (nth_error (rf_anims r) a) as [n|] eqn:N; [|apply nth_error_None in N; lia].
    destruct (iv_anims _ _ _ _ V _ _ N) as [-> E]. rewrite E in A. destruct (own h (OAnim a)); [discriminate A|lia].
Qed.

(** ** What is left *)

Lemma left_count (l : list (sobj F)) : steppers_left l = length (filter (fun k => match k with Some _ => true | None => false end) (map kind_of l)).
Proof. induction l as [|[s|a|] t IH]; cbn; rewrite ?IH; reflexivity. Qed.

Lemma count_nodup {A} (f : A -> bool) (l : list A) (ds : list nat) : NoDup ds ->
  (forall i, In i ds <-> exists x, nth_error l i = Some x /\ f x = true) -> length ds = length (filter f l).
Proof.
  revert ds. induction l as [|x t IH] using rev_ind; intros ds ND E.
  - destruct ds as [|i ds]; [reflexivity|]. destruct (proj1 (E i) (or_introl eq_refl)) as (x & X & _). destruct i; discriminate X.
  - rewrite filter_app, app_length. cbn. destruct (f x) eqn:FX.
    + assert (I : In (length t) ds) by (apply E; exists x; rewrite nth_error_app2, PeanoNat.Nat.sub_diag by lia; auto).
      apply in_split in I. destruct I as (l1 & l2 & ->). rewrite app_length. cbn.
      rewrite <- (IH (l1 ++ l2)); [rewrite app_length; lia|eapply NoDup_remove_1; eauto|].
      intros i. apply NoDup_remove in ND. destruct ND as [ND1 ND2]. split.
      * intros I. assert (I' : In i (l1 ++ length t :: l2)) by (apply in_app_iff in I; apply in_app_iff; cbn; tauto).
        apply E in I'. destruct I' as (y & Y & FY). apply nth_snoc in Y. destruct Y as [[_ Y]|[-> _]]; [eauto|contradiction].
      * intros (y & Y & FY). assert (I : In i (l1 ++ length t :: l2)).
        { apply E. exists y. rewrite nth_error_app1; [auto|]. eapply nth_lt; eauto. }
        apply in_app_iff in I. cbn in I. apply in_app_iff. destruct I as [I|[<-|I]]; auto. apply nth_lt in Y. lia.
    + rewrite PeanoNat.Nat.add_0_r. apply IH; [exact ND|]. intros i. rewrite E. split.
      * intros (y & Y & FY). apply nth_snoc in Y. destruct Y as [[_ Y]|[_ ->]]; [eauto|congruence].
      * intros (y & Y & FY). exists y. rewrite nth_error_app1; [auto|]. eapply nth_lt; eauto.
Qed.

Lemma nothing_kept h x : (forall y, ~ holds h y) -> ~ kept h x.
Proof. intros N K. induction K as [x Hd|i j _ _ IH]; [eapply N; eauto|exact IH]. Qed.

Lemma what_is_left h k : kinv h k -> (forall x, ~ holds h x) ->
  steppers_left (ga_steppers (k_world k)) = length (filter without_stepper (map fst h)) /\
  forall a, ~ exists_now (k_world k) (OAnim a).
Proof.
  intros (_ & c & ds & R & V & DC) N. split.
  - rewrite left_count, <- DC. symmetry. destruct R as [R1 R2]. rewrite <- R1. apply count_nodup; [apply (iv_nodup _ _ _ _ V)|].
    intros i. split.
    + intros I. destruct (iv_core _ _ _ _ V) as (CA & _). destruct (iv_ds _ _ _ _ V _ I) as [L _].
      destruct (nth_error (rf_steppers (k_refs k)) i) as [[n b]|] eqn:M; [|apply nth_error_None in M; lia].
      specialize (CA _ _ _ M). cbn in CA. assert (D1 : dflt ds i = 1) by (unfold dflt; destruct (in_dec _ i ds); [reflexivity|contradiction]).
      destruct (proj2 (alive_count _ _ _ _ i V)) as (kk & K); [destruct n; [lia|eauto]|]. exists (Some kk). auto.
    + intros ([kk|] & X & Y); [|discriminate Y].
      destruct (alive_kept _ _ _ _ V _ i (le_n _)) as [K|K]; [exists kk; exact X| |exact K]. exfalso. eapply nothing_kept; eauto.
  - intros a X. apply (alive_now _ _ _ R) in X. cbn in X. unfold present in X. pose proof (nth_lt _ _ _ X) as L. rewrite <- (iv_alen _ _ _ _ V) in L.
    destruct (nth_error (rf_anims (k_refs k)) a) as [n|] eqn:M; [|apply nth_error_None in M; lia].
    destruct (iv_anims _ _ _ _ V _ _ M) as [-> E]. rewrite E in X. specialize (N (OAnim a)). rewrite holds_own in N.
    destruct (own h (OAnim a)); [discriminate X|lia].
Qed.

(** The default steppers are there whatever the client does. *)
Lemma default_alive h r c ds i : inv h r c ds -> In i ds -> alive c (OStepper i).
Proof.
  intros V I. destruct (iv_core _ _ _ _ V) as (CA & _). destruct (iv_ds _ _ _ _ V _ I) as [L _].
  destruct (nth_error (rf_steppers r) i) as [[n b]|] eqn:M; [|apply nth_error_None in M; lia].
  specialize (CA _ _ _ M). cbn in CA. assert (D1 : dflt ds i = 1) by (unfold dflt; destruct (in_dec _ i ds); [reflexivity|contradiction]).
  apply (alive_count _ _ _ _ i V). destruct n; [lia|eauto].
Qed.

(** ** Dropping the last reference to a stepper of an animation *)

Lemma last_wrapper h k i a : kinv h k -> observes h i a -> holds h (OStepper i) -> ~ holds_two h (OStepper i) ->
  (forall j, reverses h j i -> ~ kept h (OStepper j)) ->
  (holds h (OAnim a) -> k_do k (KUnref (OStepper i)) = Err BadFree) /\
  (~ holds h (OAnim a) -> k_do k (KUnref (OStepper i)) = Err UseAfterFree).
Proof.
  intros (_ & c & ds & R & V & DC) O Hd NT NR.
  pose proof (iv_obsB _ _ _ _ V _ _ O) as K. pose proof (nth_lt _ _ _ K) as L. destruct (iv_kinds _ _ _ _ V) as [KL _].
  destruct (nth_error (rf_steppers (k_refs k)) i) as [[n b]|] eqn:N; [|apply nth_error_None in N; lia].
  pose proof (iv_obsD _ _ _ _ V _ _ _ _ K N). subst b.
  destruct (iv_core _ _ _ _ V) as (CA & _ & CC). pose proof (CA _ _ _ N) as Q. cbn in Q.
  assert (D0 : dflt ds i = 0).
  { unfold dflt. destruct (in_dec _ _ _) as [X|X]; [|reflexivity]. apply (iv_ds _ _ _ _ V) in X. unfold holds in Hd. lia. }
  assert (R0 : refs_to (rf_steppers (k_refs k)) i = 0).
  { destruct (PeanoNat.Nat.eq_dec (refs_to (rf_steppers (k_refs k)) i) 0) as [X|X]; [exact X|].
    destruct (refs_to_some (rf_steppers (k_refs k)) i) as (j & m & M); [lia|]. exfalso.
    pose proof (iv_revA _ _ _ _ V _ _ _ M) as RE. apply (NR _ RE). pose proof (CC _ _ _ M) as [_ P].
    apply (alive_iff _ _ _ _ _ V); [eapply acquired_in; eauto|]. apply (alive_count _ _ _ _ _ V). destruct m; [lia|eauto]. }
  assert (N1 : n = 1) by (unfold own, holds, holds_two in *; lia). clear Q. subst n.
  assert (FE : forall e, stepper_finalize (k_world k) i = Err e -> k_do k (KUnref (OStepper i)) = Err e).
  { intros e X. unfold k_do. cbn [ref_do drop_stepper]. rewrite N. cbn [bind fst snd app ga_run ga_do rf_steppers rf_anims rf_lost].
    rewrite X. reflexivity. }
  assert (W : nth_error (ga_steppers (k_world k)) i = Some (SWrapper a)).
  { destruct R as [R1 _]. rewrite R1, nth_error_map in K. destruct (nth_error (ga_steppers (k_world k)) i) as [[s|a'|]|]; try discriminate K. injection K as ->. reflexivity. }
  assert (A : holds h (OAnim a) <-> exists y, nth_error (ga_anims (k_world k)) a = Some (Some y)).
  { rewrite (alive_now _ _ (OAnim a) R). split.
    - intros X. destruct (held_anim _ _ _ _ _ V X) as (m & _ & P). exact P.
    - intros X. cbn in X. unfold present in X. pose proof (nth_lt _ _ _ X) as La. rewrite <- (iv_alen _ _ _ _ V) in La.
      destruct (nth_error (rf_anims (k_refs k)) a) as [m|] eqn:M; [|apply nth_error_None in M; lia].
      destruct (iv_anims _ _ _ _ V _ _ M) as [-> E]. rewrite E in X. apply holds_own. destruct (own h (OAnim a)); [discriminate X|lia]. }
  unfold stepper_finalize in FE. rewrite W in FE. split; intros Y; apply FE.
  - apply A in Y. destruct Y as (y & ->). reflexivity.
  - destruct (nth_error (ga_anims (k_world k)) a) as [[y|]|]; [exfalso; apply Y, A; eauto|reflexivity|reflexivity].
Qed.

(** ** The default stepper *)

Lemma default_explicit w (g : gargs F D) : args_stepper g = None ->
  anim_object (add_stepper w (SHolder (GLin (linear_new (nof 300))))) (with_stepper g (length (ga_steppers w))) = anim_object w g.
Proof.
  intros G. rewrite !anim_object_eq. rewrite arg_with, arg_same, G.
  replace (args_of (with_stepper g (length (ga_steppers w)))) with (args_of g) by (destruct g; reflexivity).
  destruct (args_of g) as [args|]; [|reflexivity]. cbn [bind stepper_of]. rewrite read_added. cbn [bind].
  destruct (anim_new gcall args _) as [x|]; [|reflexivity]. cbn [bind]. destruct g; reflexivity.
Qed.

Lemma new_same (k : kworld F D) (g : gargs F D) k' u : length (rf_steppers (k_refs k)) = length (ga_steppers (k_world k)) ->
  k_do k (KNew g) = Ok (k', u) ->
  exists w', ga_do (k_world k) (ANew g) = Ok (w', u) /\ ga_anims w' = ga_anims (k_world k').
Proof.
  intros L E. unfold k_do in E. cbn [ref_do] in E. destruct (args_stepper g) as [i|] eqn:G.
  - cbn [bind fst snd ga_run] in E. destruct (ga_do (k_world k) (ANew g)) as [[w' v]|] eqn:X; [|discriminate E].
    cbn in E. injection E as <- <-. eauto.
  - cbn [bind fst snd ga_run ga_do] in E. rewrite linear_object_ok in E. cbn [bind fst snd] in E. rewrite L, default_explicit in E by exact G.
    cbn [ga_do]. destruct (anim_object (k_world k) g) as [x|]; [|discriminate E]. cbn in E. injection E as <- <-.
    cbn. eauto.
Qed.

Lemma run_calls ops : forall (k k' : kworld F D) us gops vs, ga_run ga_start gops = Ok (k_world k, vs) -> k_run k ops = Ok (k', us) ->
  exists gops' vs', ga_run ga_start gops' = Ok (k_world k', vs').
Proof.
  induction ops as [|o t IH]; intros k k' us gops vs G E; [injection E as <- <-; eauto|].
  apply k_run_cons in E. destruct E as (k1 & u & us1 & E1 & E2 & _). unfold k_do in E1.
  destruct (ref_do (k_refs k) o) as [[r calls]|]; [|discriminate E1]. cbn [bind fst snd] in E1.
  destruct (ga_run (k_world k) calls) as [[w us2]|] eqn:X; [|discriminate E1]. injection E1 as <- <-.
  eapply (IH _ _ _ (gops ++ calls) (vs ++ us2)); [|exact E2]. cbn [k_world].
  clear - G X. revert gops vs G. generalize (ga_start (F := F) (D := D)) as w0. intros w0 gops. revert w0.
  induction gops as [|g l IH]; intros w0 vs G.
  - injection G as -> <-. exact X.
  - apply run_cons in G. destruct G as (w1 & v & vs1 & G1 & G2 & ->). cbn [app ga_run]. rewrite G1. cbn [bind fst snd].
    rewrite (IH _ _ G2). reflexivity.
Qed.

Lemma drop_lost fuel : forall r i r' calls, drop_stepper (F := F) (D := D) fuel r i = Ok (r', calls) -> rf_lost r' = rf_lost r.
Proof.
  induction fuel as [|fuel IH]; intros r i r' calls E; [discriminate E|]. cbn [drop_stepper] in E.
  destruct (nth_error (rf_steppers r) i) as [[[|[|n]] [j|]]|]; try discriminate E.
  - destruct (drop_stepper fuel _ j) as [[r1 cs]|] eqn:X; [|discriminate E]. injection E as <- <-. cbn [fst rf_lost]. apply IH in X. exact X.
  - injection E as <- <-. reflexivity.
  - injection E as <- <-. reflexivity.
  - injection E as <- <-. reflexivity.
Qed.
Definition default_vector (o : kop F D) : bool := match o with KNew (GLamp _ _ None _ _ _ _ _) => true | _ => false end.
Lemma do_lost r (o : kop F D) r' calls : ref_do r o = Ok (r', calls) -> rf_lost r' = rf_lost r + b2n (default_vector o).
Proof.
  intros E. destruct o as [n|b|g|[i|a]|[i|a]|i ms|a ms|a i|a|a nm v|a nm v]; cbn [ref_do default_vector] in *;
    try (injection E as <- <-; cbn; lia).
  - destruct b as [j|]; cbn [bind] in E; [|injection E as <- <-; cbn; lia].
    unfold take_stepper in E. destruct (nth_error (rf_steppers r) j) as [[[|m] b']|]; try discriminate E. injection E as <- <-. cbn. lia.
  - destruct (args_stepper g); injection E as <- <-; cbn; destruct g as [| | |f t [v|] b o st sp s]; cbn; lia.
  - unfold take_stepper in E. destruct (nth_error (rf_steppers r) i) as [[[|m] b']|]; try discriminate E. injection E as <- <-. cbn. lia.
  - unfold take_anim in E. destruct (nth_error (rf_anims r) a) as [[|m]|]; try discriminate E. injection E as <- <-. cbn. lia.
  - apply drop_lost in E. cbn. lia.
  - unfold drop_anim in E. destruct (nth_error (rf_anims r) a) as [[|[|m]]|]; try discriminate E; injection E as <- <-; cbn; lia.
Qed.
Lemma run_lost_from ops : forall (k k' : kworld F D) us, k_run k ops = Ok (k', us) ->
  rf_lost (k_refs k') = rf_lost (k_refs k) + length (filter default_vector ops).
Proof.
  induction ops as [|o t IH]; intros k k' us E; [injection E as <- <-; cbn; lia|].
  apply k_run_cons in E. destruct E as (k1 & u & us1 & E1 & E2 & _). apply IH in E2. unfold k_do in E1.
  destruct (ref_do (k_refs k) o) as [[r calls]|] eqn:X; [|discriminate E1]. cbn [bind fst snd] in E1. apply do_lost in X.
  destruct (ga_run (k_world k) calls) as [[w us2]|]; [|discriminate E1]. injection E1 as <- <-. cbn [k_refs] in E2.
  rewrite E2, X. cbn [filter]. destruct (default_vector o); cbn; lia.
Qed.
Lemma run_lost ops (k : kworld F D) us : k_run k_start ops = Ok (k, us) -> rf_lost (k_refs k) = length (filter default_vector ops).
Proof. intros E. apply run_lost_from in E. exact E. Qed.

(** Concrete histories: only the objects among the outputs matter. *)
Definition shape (u : gaout F) : gaout F := match u with RStepper i => RStepper i | RAnim a => RAnim a | _ => RNone end.
Definition shapes (h : khistory F D) : khistory F D := map (fun p => (fst p, shape (snd p))) h.

Lemma acquires_shape (p : kop F D * gaout F) : acquires (fst p, shape (snd p)) = acquires p.
Proof. destruct p as [[] []]; reflexivity. Qed.
Lemma acquired_shapes (h : khistory F D) x : acquired (shapes h) x = acquired h x.
Proof.
  induction h as [|p h IH]; [reflexivity|]. unfold acquired in *. cbn [shapes map filter]. rewrite acquires_shape.
  destruct (is_obj x (acquires p)); cbn [length]; unfold shapes in IH; rewrite IH; reflexivity.
Qed.
Lemma released_shapes (h : khistory F D) x : released (shapes h) x = released h x.
Proof.
  induction h as [|p h IH]; [reflexivity|]. unfold released in *. cbn [shapes map filter].
  replace (releases (fst p, shape (snd p))) with (releases p) by (destruct p as [[] ?]; reflexivity).
  destruct (is_obj x (releases p)); cbn [length]; unfold shapes in IH; rewrite IH; reflexivity.
Qed.
Lemma in_shapes (h : khistory F D) o i : In (o, RStepper i) (shapes h) <-> In (o, RStepper i) h.
Proof.
  unfold shapes. rewrite in_map_iff. split.
  - intros ((o' & u) & E & I). cbn in E. injection E as -> E. destruct u; try discriminate E. injection E as ->. exact I.
  - intros I. exists (o, RStepper i). split; [reflexivity|exact I].
Qed.
Lemma holds_shapes (h : khistory F D) x : holds (shapes h) x <-> holds h x.
Proof. unfold holds. rewrite acquired_shapes, released_shapes. reflexivity. Qed.
Lemma holds_two_shapes (h : khistory F D) x : holds_two (shapes h) x <-> holds_two h x.
Proof. unfold holds_two. rewrite acquired_shapes, released_shapes. reflexivity. Qed.
Lemma observes_shapes (h : khistory F D) i a : observes (shapes h) i a <-> observes h i a.
Proof. apply in_shapes. Qed.
Lemma reverses_shapes (h : khistory F D) i a : reverses (shapes h) i a <-> reverses h i a.
Proof. apply in_shapes. Qed.
Lemma can_use_shapes (h : khistory F D) i : can_use (shapes h) i <-> can_use h i.
Proof.
  unfold can_use. rewrite holds_shapes. split; intros [A B]; (split; [exact A|]); intros a O; apply holds_shapes, B, observes_shapes, O.
Qed.
Lemma careful_shapes (h : khistory F D) o : careful (shapes h) o <-> careful h o.
Proof.
  assert (N : forall i, can_use_or_null (shapes h) i <-> can_use_or_null h i) by (intros [i|]; cbn; [apply can_use_shapes|reflexivity]).
  assert (E : forall i : option nat, (exists j, i = Some j /\ can_use (shapes h) j) <-> (exists j, i = Some j /\ can_use h j)).
  { intros i. split; intros (j & X & Y); exists j; (split; [exact X|]); apply can_use_shapes; exact Y. }
  destruct o; cbn; rewrite ?holds_shapes, ?E, ?N, ?can_use_shapes; try reflexivity.
  - split; intros [A B]; (split; [exact A|]); intros i a X O; apply holds_two_shapes, (B i a X), observes_shapes, O.
  - destruct v; rewrite ?E; reflexivity.
Qed.

Fixpoint careful_from (pre post : khistory F D) : Prop :=
  match post with [] => True | p :: t => careful pre (fst p) /\ careful_from (pre ++ [p]) t end.
Lemma careful_from_at post : forall pre a p b, careful_from pre post -> post = a ++ p :: b -> careful (pre ++ a) (fst p).
Proof.
  induction post as [|x t IH]; intros pre a p b C E; [destruct a; discriminate E|]. destruct C as [C1 C2]. destruct a as [|y a].
  - injection E as -> ->. rewrite app_nil_r. exact C1.
  - injection E as -> ->. specialize (IH (pre ++ [y]) a p b C2 eq_refl). rewrite <- app_assoc in IH. exact IH.
Qed.
Lemma k_run_prefix pre : forall (post : list (kop F D)) k k' k1 us us1, k_run k (pre ++ post) = Ok (k', us) -> k_run k pre = Ok (k1, us1) ->
  exists us2, us = us1 ++ us2.
Proof.
  induction pre as [|o t IH]; intros post k k' k1 us us1 E E1.
  - injection E1 as <- <-. exists us. reflexivity.
  - cbn [app] in E. apply k_run_cons in E. apply k_run_cons in E1. destruct E as (ka & u & va & A1 & A2 & ->).
    destruct E1 as (kb & v & vb & B1 & B2 & ->). rewrite A1 in B1. injection B1 as <- <-.
    destruct (IH _ _ _ _ _ _ A2 B2) as (us2 & ->). exists us2. reflexivity.
Qed.
Lemma careful_by (ops : list (kop F D)) outs :
  match k_run k_start ops with Ok (_, us) => map shape us = outs | Err _ => False end ->
  careful_from [] (combine ops outs) -> careful_history ops.
Proof.
  intros E C pre o post k us P R. destruct (k_run k_start ops) as [[k' vs]|] eqn:X; [|contradiction].
  pose proof (k_run_length _ _ _ _ X) as LX. pose proof (k_run_length _ _ _ _ R) as LR. subst ops.
  destruct (k_run_prefix _ _ _ _ _ _ _ X R) as (us2 & ->).
  rewrite !app_length in LX. cbn [length] in LX. destruct us2 as [|v us2]; [cbn in LX; lia|].
  apply careful_shapes. rewrite map_app in E. subst outs. cbn [map] in C.
  assert (CC : forall (l1 : list (kop F D)) (m1 : list (gaout F)) l2 m2, length m1 = length l1 -> combine (l1 ++ l2) (m1 ++ m2) = combine l1 m1 ++ combine l2 m2).
  { induction l1 as [|x l1 IH]; intros [|y m1] l2 m2 L; try discriminate L; [reflexivity|]. cbn. rewrite IH by (cbn in L; lia). reflexivity. }
  rewrite CC in C by (rewrite map_length; exact LR). cbn [combine] in C.
  pose proof (careful_from_at _ [] _ _ _ C eq_refl) as Q. cbn [fst app] in Q.
  replace (shapes (combine pre us)) with (combine pre (map shape us)); [exact Q|].
  clear. revert us. induction pre as [|x pre IH]; intros [|y us]; try reflexivity. cbn. rewrite IH. reflexivity.
Qed.

Definition stepper_there (s : sobj F) : bool := match s with SGone => false | _ => true end.
Lemma case_run (ops : list (kop F D)) outs al :
  match k_run k_start ops with Ok (k, us) => map shape us = outs /\ map stepper_there (ga_steppers (k_world k)) = al | Err _ => False end ->
  exists k us, k_run k_start ops = Ok (k, us) /\ shapes (combine ops us) = combine ops outs /\ map stepper_there (ga_steppers (k_world k)) = al.
Proof.
  intros E. destruct (k_run k_start ops) as [[k us]|] eqn:X; [|contradiction]. destruct E as [<- <-]. exists k, us. split; [reflexivity|]. split; [|reflexivity].
  clear. revert us. induction ops as [|x pre IH]; intros [|y us]; try reflexivity. cbn. unfold shapes in IH. rewrite IH. reflexivity.
Qed.
Lemma there_now (w : gaworld F D) i al : map stepper_there (ga_steppers w) = al -> (exists_now w (OStepper i) <-> nth_error al i = Some true).
Proof.
  intros <-. rewrite nth_error_map. cbn. destruct (nth_error (ga_steppers w) i) as [[s|a|]|]; cbn; split.
  all: try solve [intros (s' & E & N); try discriminate E; injection E as <-; congruence].
  all: intros E; try discriminate E; eexists; split; first [reflexivity|discriminate].
Qed.
Lemma left_there l : steppers_left l = length (filter (fun b => b) (map stepper_there l)).
Proof. induction l as [|[s|a|] t IH]; cbn; rewrite ?IH; reflexivity. Qed.

End Refs.

(** For concrete histories, given the objects they return. *)
Ltac careful_tac outs :=
  apply (careful_by _ outs); [vm_compute; reflexivity|]; cbn -[careful]; repeat split;
  unfold careful, can_use_or_null, can_use, holds, holds_two, observes; cbn; repeat split;
  try lia; try (intros; intuition discriminate); try (intros; intuition congruence).

Lemma map_fst_combine {A B} (l : list A) : forall (m : list B), length l = length m -> map fst (combine l m) = l.
Proof. induction l as [|x t IH]; intros [|y m] L; try discriminate L; [reflexivity|]. cbn. rewrite IH by (cbn in L; lia). reflexivity. Qed.
