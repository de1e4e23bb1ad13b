(** * Programs with anchor variables: ownership *)

From Coq Require Import ZArith Bool List Lia.
From Verif Require Import Num Geometry Outcome Wobbly Spec LemBasic LemHistory LemSafe LemMoves LemNetworkFacts LemDangle AnchorVars SpecVars.
Import ListNotations.

Section Reader.
Context {T : Type}.
Implicit Types (r : reader) (c : client) (o : vop T).

(** The reader of the program and the client of the native interface agree:
    the live anchors are those held by variables, each by one. *)
Record knows r c : Prop := {
  kn_live : forall n, In n (map fst (c_live c)) <-> exists v, var r v = Some n;
  kn_once : forall v v' n, var r v = Some n -> var r v' = Some n -> v = v';
  kn_old : forall v n, var r v = Some n -> n < r_acquired r;
  kn_count : c_acquired c = r_acquired r;
  kn_gone : c_destroyed c = r_destroyed r }.

Lemma knows_start : knows reader_start client_start.
Proof. constructor; cbn; auto; try (intros []; discriminate); try (intros ? []; discriminate). intros n. split; [intros []|]. intros [[|v] Hv]; discriminate Hv. Qed.

Lemma nth_set {A} (d a : A) l : forall v x, v < length l -> nth x (list_set v a l) d = if Nat.eqb x v then a else nth x l d.
Proof.
  induction l as [|b l IH]; intros v x L; [cbn in L; lia|]. destruct v, x; cbn in *; auto. rewrite IH by lia. reflexivity.
Qed.
Lemma nth_add {A} (d a : A) l x : nth x (l ++ [a]) d = if Nat.eqb x (length l) then a else nth x l d.
Proof.
  destruct (Nat.eqb_spec x (length l)) as [->|N]; [rewrite app_nth2, Nat.sub_diag by lia; reflexivity|].
  destruct (Nat.lt_ge_cases x (length l)); [apply app_nth1; auto|]. rewrite !nth_overflow; auto; rewrite ?app_length; cbn; lia.
Qed.
Lemma nth_removed {A} (d : A) l x : l <> [] -> nth x (removelast l) d = if Nat.eqb x (length l - 1) then d else nth x l d.
Proof.
  intros N. destruct (exists_last N) as (l' & a & ->). rewrite removelast_last, nth_add, app_length. cbn [length].
  replace (length l' + 1 - 1) with (length l') by lia. destruct (Nat.eqb_spec x (length l')) as [->|]; auto. apply nth_overflow. lia.
Qed.
Lemma last_nth {A} (d : A) l : last l d = nth (length l - 1) l d.
Proof.
  induction l as [|a l IH]; auto. destruct l as [|b l]; auto. change (last (a :: b :: l) d) with (last (b :: l) d). rewrite IH. cbn [length]. replace (S (S (length l)) - 1) with (S (S (length l) - 1)) by lia. reflexivity.
Qed.
Lemma var_out r v n : var r v = Some n -> v < length (r_vars r).
Proof. unfold var. intros E. destruct (Nat.lt_ge_cases v (length (r_vars r))); auto. rewrite nth_overflow in E by auto. discriminate E. Qed.

Lemma released_live (c : client) n k : In k (map fst (c_live (client_step c (OpRelease (T := T) n)))) <-> In k (map fst (c_live c)) /\ k <> n.
Proof.
  cbn. rewrite !in_map_iff. split.
  - intros (e & <- & I). apply filter_In in I. destruct I as (I & Q). split; [eauto|]. apply negb_true_iff, Nat.eqb_neq in Q. exact Q.
  - intros ((e & <- & I) & Q). exists e. split; auto. apply filter_In. split; auto. apply negb_true_iff, Nat.eqb_neq. exact Q.
Qed.
Lemma acquired_live (c : client) k q : In k (map fst (c_live c ++ [(c_acquired c, q : kind)])) <-> In k (map fst (c_live c)) \/ k = c_acquired c.
Proof. rewrite map_app, in_app_iff. cbn. intuition. Qed.

(** Dropping what variable [v] holds. *)
Lemma dropped r r' c v :
  knows r c -> (forall x, var r' x = if Nat.eqb x v then None else var r x) ->
  r_acquired r' = r_acquired r -> r_destroyed r' = r_destroyed r ->
  knows r' (fold_left client_step (let_go (T := T) (var r v)) c).
Proof.
  intros K V A D. constructor.
  - intros n. destruct (var r v) as [k|] eqn:E; cbn [let_go fold_left].
    + rewrite released_live, (kn_live _ _ K). split.
      * intros ((x & X) & N). exists x. rewrite V. destruct (Nat.eqb_spec x v); [subst; congruence|exact X].
      * intros (x & X). rewrite V in X. destruct (Nat.eqb_spec x v) as [|Nx]; [discriminate X|]. split; [eauto|]. intros ->.
        apply Nx. eapply kn_once; eauto.
    + rewrite (kn_live _ _ K). split; intros (x & X); exists x; [rewrite V|rewrite V in X]; destruct (Nat.eqb_spec x v); congruence.
  - intros x x' n. rewrite !V. destruct (Nat.eqb x v), (Nat.eqb x' v); try discriminate. apply (kn_once _ _ K).
  - intros x n. rewrite V, A. destruct (Nat.eqb x v); [discriminate|]. apply (kn_old _ _ K).
  - rewrite A, <- (kn_count _ _ K). destruct (var r v); reflexivity.
  - rewrite D, <- (kn_gone _ _ K). destruct (var r v); reflexivity.
Qed.

(** A variable that holds nothing receives a new anchor. *)
Lemma acquired r r' c v (o : op T) :
  knows r c -> var r v = None -> (forall x, var r' x = if Nat.eqb x v then Some (r_acquired r) else var r x) ->
  r_acquired r' = S (r_acquired r) -> r_destroyed r' = r_destroyed r ->
  (exists p, o = OpGrab p \/ o = OpInsert p) -> knows r' (client_step (T := T) c o).
Proof.
  intros K E V A D (p & O).
  assert (X : exists q, client_step c o = mkClient (c_live c ++ [(c_acquired c, q)]) (S (c_acquired c)) (c_destroyed c)) by (destruct O as [-> | ->]; eexists; reflexivity).
  destruct X as (q & ->). constructor; cbn.
  - intros n. rewrite acquired_live, (kn_live _ _ K), (kn_count _ _ K). split.
    + intros [(x & X)| ->]; [exists x|exists v]; rewrite V; [|rewrite Nat.eqb_refl; reflexivity]. destruct (Nat.eqb_spec x v); congruence.
    + intros (x & X). rewrite V in X. destruct (Nat.eqb x v); [right; congruence|left; eauto].
  - intros x x' n. rewrite !V. destruct (Nat.eqb_spec x v), (Nat.eqb_spec x' v); subst; auto; intros X Y.
    + injection X as <-. pose proof (kn_old _ _ K _ _ Y). lia.
    + injection Y as <-. pose proof (kn_old _ _ K _ _ X). lia.
    + eapply kn_once; eauto.
  - intros x n. rewrite V, A. destruct (Nat.eqb x v); intros X; [injection X as <-; lia|]. pose proof (kn_old _ _ K _ _ X). lia.
  - rewrite A, (kn_count _ _ K). reflexivity.
  - rewrite D. apply (kn_gone _ _ K).
Qed.

(** What variable [x] holds moves to the empty variable [v]. *)
Lemma handed r r' c v x :
  knows r c -> v <> x -> var r v = None ->
  (forall y, var r' y = if Nat.eqb y v then var r x else if Nat.eqb y x then None else var r y) ->
  r_acquired r' = r_acquired r -> r_destroyed r' = r_destroyed r -> knows r' c.
Proof.
  intros K N E V A D. constructor.
  - intros n. rewrite (kn_live _ _ K). split; intros (y & Y).
    + destruct (Nat.eq_dec y x) as [->|Ny]; [exists v; rewrite V, Nat.eqb_refl; exact Y|]. exists y. rewrite V.
      destruct (Nat.eqb_spec y v); [congruence|]. destruct (Nat.eqb_spec y x); congruence.
    + rewrite V in Y. destruct (Nat.eqb y v); [eauto|]. destruct (Nat.eqb y x); [discriminate|eauto].
  - intros y y' n. rewrite !V. destruct (Nat.eqb_spec y v), (Nat.eqb_spec y' v); subst; auto.
    + destruct (Nat.eqb_spec y' x); [discriminate|]. intros X Y. pose proof (kn_once _ _ K _ _ _ X Y). congruence.
    + destruct (Nat.eqb_spec y x); [discriminate|]. intros X Y. pose proof (kn_once _ _ K _ _ _ X Y). congruence.
    + destruct (Nat.eqb y x), (Nat.eqb y' x); try discriminate. apply (kn_once _ _ K).
  - intros y n. rewrite V, A. destruct (Nat.eqb y v); [apply (kn_old _ _ K)|]. destruct (Nat.eqb y x); [discriminate|apply (kn_old _ _ K)].
  - rewrite A. apply (kn_count _ _ K).
  - rewrite D. apply (kn_gone _ _ K).
Qed.

(** The same, seen from outside. *)
Lemma unchanged r r' c c' :
  knows r c -> (forall x, var r' x = var r x) -> r_acquired r' = r_acquired r -> c_destroyed c' = r_destroyed r' ->
  c_live c' = c_live c -> c_acquired c' = c_acquired c -> knows r' c'.
Proof.
  intros K V A D L Q. constructor; try rewrite !L; try rewrite Q; try rewrite A; auto.
  - intros n. rewrite (kn_live _ _ K). split; intros (v & E); exists v; [rewrite V|rewrite V in E]; exact E.
  - intros v v' n. rewrite !V. apply (kn_once _ _ K).
  - intros v n. rewrite V. apply (kn_old _ _ K).
  - apply (kn_count _ _ K).
Qed.

Lemma fresh_var r : var r (length (r_vars r)) = None.
Proof. unfold var. apply nth_overflow. lia. Qed.

Lemma knows_step r c o : in_scope r o -> knows r c -> knows (read r o) (fold_left client_step (stands_for r o) c).
Proof.
  intros S K. assert (G := kn_gone _ _ K).
  assert (B : forall v p (o' : op T), v < length (r_vars r) -> (o' = OpGrab p \/ o' = OpInsert p) ->
    knows (mkReader (list_set v (Some (r_acquired r)) (r_vars r)) (Datatypes.S (r_acquired r)) (r_destroyed r))
          (fold_left client_step (let_go (T := T) (var r v)) (client_step c o'))).
  { intros v p o' L O.
    assert (X : exists q, client_step c o' = mkClient (c_live c ++ [(c_acquired c, q)]) (Datatypes.S (c_acquired c)) (c_destroyed c)) by (destruct O as [-> | ->]; eexists; reflexivity).
    destruct X as (q & ->). clear O.
    set (r' := mkReader _ _ _). assert (V : forall x, var r' x = if Nat.eqb x v then Some (r_acquired r) else var r x) by (intros x; unfold var, r'; cbn; apply nth_set; auto).
    constructor.
    - intros n. destruct (var r v) as [k|] eqn:E; cbn [let_go fold_left].
      + rewrite released_live. cbn [c_live]. rewrite acquired_live, (kn_live _ _ K), (kn_count _ _ K). pose proof (kn_old _ _ K _ _ E) as Ok. split.
        * intros ([(x & X)| ->] & N); [exists x|exists v]; rewrite V; [|rewrite Nat.eqb_refl; reflexivity]. destruct (Nat.eqb_spec x v); congruence.
        * intros (x & X). rewrite V in X. destruct (Nat.eqb_spec x v) as [|Nx]; [injection X as <-; split; [auto|lia]|]. split; [eauto|]. intros ->.
          apply Nx. eapply kn_once; eauto.
      + cbn [c_live]. rewrite acquired_live, (kn_live _ _ K), (kn_count _ _ K). split.
        * intros [(x & X)| ->]; [exists x|exists v]; rewrite V; [|rewrite Nat.eqb_refl; reflexivity]. destruct (Nat.eqb_spec x v); congruence.
        * intros (x & X). rewrite V in X. destruct (Nat.eqb_spec x v); [right; congruence|left; eauto].
    - intros x x' n. rewrite !V. destruct (Nat.eqb_spec x v), (Nat.eqb_spec x' v); subst; auto; intros X Y.
      + injection X as <-. pose proof (kn_old _ _ K _ _ Y). lia.
      + injection Y as <-. pose proof (kn_old _ _ K _ _ X). lia.
      + eapply kn_once; eauto.
    - intros x n. rewrite V. cbn. destruct (Nat.eqb x v); intros X; [injection X as <-; lia|]. pose proof (kn_old _ _ K _ _ X). lia.
    - cbn. rewrite <- (kn_count _ _ K). destruct (var r v); reflexivity.
    - cbn. rewrite <- G. destruct (var r v); reflexivity. }
  destruct o; cbn [in_scope stands_for read] in *.
  - eapply unchanged; eauto. intros x. unfold var. cbn. rewrite nth_add. destruct (Nat.eqb_spec x (length (r_vars r))) as [->|]; auto. symmetry. apply fresh_var.
  - cbn [fold_left]. eapply (acquired r _ c (length (r_vars r))); eauto using fresh_var. intros x. unfold var. cbn. apply nth_add.
  - cbn [fold_left]. eapply (acquired r _ c (length (r_vars r))); eauto using fresh_var. intros x. unfold var. cbn. apply nth_add.
  - cbn [fold_left]. eapply (handed r _ c (length (r_vars r)) x); eauto using fresh_var; [lia|]. intros y. unfold var. cbn.
    rewrite nth_add, list_set_length, nth_set by auto. reflexivity.
  - cbn [app fold_left]. eapply B; eauto.
  - cbn [app fold_left]. eapply B; eauto.
  - destruct (Nat.eq_dec v x) as [->|N]; [exact K|]. destruct S as (S1 & S2).
    apply (handed (mkReader (list_set v None (r_vars r)) (r_acquired r) (r_destroyed r)) _ _ v x); auto.
    + apply dropped with (r := r); auto. intros y. unfold var. cbn. apply nth_set; auto.
    + unfold var. cbn. rewrite nth_set, Nat.eqb_refl by auto. reflexivity.
    + intros y. unfold var. cbn. rewrite !nth_set by (rewrite ?list_set_length; auto).
      destruct (Nat.eqb_spec x v); [congruence|]. destruct (Nat.eqb_spec y v), (Nat.eqb_spec y x); congruence.
  - apply dropped with (r := r); auto. intros y. unfold var. cbn. apply nth_set; auto.
  - apply (unchanged r r c); auto; destruct (var r v); auto.
  - rewrite last_nth. apply dropped with (r := r); auto. intros y. unfold var. cbn. apply nth_removed; auto.
  - apply (unchanged r r c); auto.
  - apply (unchanged r r c); auto.
  - apply (unchanged r r c); auto.
  - apply (unchanged r r c); auto.
  - apply (unchanged r r c); auto.
  - cbn [fold_left]. eapply (unchanged r _ c); auto.
Qed.

Lemma knows_all (ops : list (vop T)) : forall r c, each_statement in_scope r ops -> knows r c -> knows (fold_left read ops r) (fold_left client_step (calls_of r ops) c).
Proof.
  induction ops as [|o ops IH]; intros r c S K; cbn in *; auto. destruct S as (S & Ss). rewrite fold_left_app. apply IH; auto. apply knows_step; auto.
Qed.

(** What is asked of a program is asked of its native calls. *)
Lemma statements_calls (P : reader -> vop T -> Prop) (Q : client -> op T -> Prop) :
  (forall r c o, in_scope r o -> knows r c -> P r o -> each_call Q c (stands_for r o)) ->
  forall ops r c, each_statement in_scope r ops -> knows r c -> each_statement P r ops -> each_call Q c (calls_of r ops).
Proof.
  intros St. induction ops as [|o ops IH]; intros r c S K A; cbn in *; auto. destruct S as (S & Ss). destruct A as (A & As).
  apply each_call_app. split; [eapply St; eauto|]. apply IH; auto. apply knows_step; auto.
Qed.

Lemma let_go_each (Q : client -> op T -> Prop) n c : (forall k, n = Some k -> Q c (OpRelease k)) -> each_call Q c (let_go n).
Proof. intros A. destruct n; cbn; auto. Qed.

Lemma sane_careful (ops : list (vop T)) r c : each_statement in_scope r ops -> knows r c -> each_statement sane r ops -> each_call careful c (calls_of r ops).
Proof.
  apply statements_calls. clear. intros r c o S K A. assert (G := kn_gone _ _ K).
  destruct o; cbn [stands_for sane each_call] in *; auto;
    try (apply let_go_each; intros; exact I);
    try (split; [cbn; congruence|]; first [exact I|apply let_go_each; intros; exact I]).
  - destruct (Nat.eq_dec v x); [exact I|apply let_go_each; intros; exact I].
  - destruct (var r v) as [n|] eqn:E; [|congruence]. cbn. split; auto. apply (kn_live _ _ K). eauto.
  - destruct A as (A & N). split; [|exact I]. cbn. split; [congruence|]. destruct (c_live c) as [|e l] eqn:L; auto. exfalso.
    destruct (proj1 (kn_live _ _ K (fst e))) as (v & V); [rewrite L; left; reflexivity|]. rewrite N in V. discriminate V.
Qed.
End Reader.

(** ** Order of releases *)

Section Order.
Context {T : Type}.
Implicit Types (r : reader) (c : client) (o : vop T).

(** Younger variables hold younger anchors. *)
Definition increasing r : Prop := forall v v' n n', v < v' -> var r v = Some n -> var r v' = Some n' -> n < n'.

Lemma increasing_step r c o : knows r c -> initialised_only o -> increasing r -> increasing (read r o).
Proof.
  intros K A I. destruct o; cbn [initialised_only read] in *; auto; try contradiction.
  - intros v v' n n' L. unfold var. cbn. rewrite !nth_add. destruct (Nat.eqb v _); [discriminate|]. destruct (Nat.eqb v' _); [discriminate|]. apply I; auto.
  - intros v v' n n' L. unfold var. cbn. rewrite !nth_add. destruct (Nat.eqb_spec v (length (r_vars r))) as [->|].
    { intros _ X. destruct (Nat.eqb_spec v' (length (r_vars r))) as [->|]; [lia|]. rewrite nth_overflow in X by lia. discriminate X. }
    intros X. destruct (Nat.eqb_spec v' (length (r_vars r))); [intros Y; injection Y as <-; eapply kn_old; eauto|]. intros Y. eapply I; eauto.
  - intros v v' n n' L. unfold var. cbn. rewrite !nth_add. destruct (Nat.eqb_spec v (length (r_vars r))) as [->|].
    { intros _ X. destruct (Nat.eqb_spec v' (length (r_vars r))) as [->|]; [lia|]. rewrite nth_overflow in X by lia. discriminate X. }
    intros X. destruct (Nat.eqb_spec v' (length (r_vars r))); [intros Y; injection Y as <-; eapply kn_old; eauto|]. intros Y. eapply I; eauto.
  - destruct (r_vars r) as [|a l] eqn:E; [intros [|v] v' n n' _ X; discriminate X|].
    intros v v' n n' L. unfold var. cbn [r_vars]. rewrite !nth_removed by discriminate. destruct (Nat.eqb v _); [discriminate|]. destruct (Nat.eqb v' _); [discriminate|].
    intros X Y. eapply I; eauto; unfold var; rewrite E; eauto.
Qed.

Lemma initialised_lifo (ops : list (vop T)) : forall r c, each_statement in_scope r ops -> knows r c -> Forall initialised_only ops -> increasing r ->
  each_call newest_first c (calls_of r ops).
Proof.
  induction ops as [|o ops IH]; intros r c S K A I; cbn in *; auto. destruct S as (S & Ss). inversion A; subst.
  apply each_call_app. split.
  - destruct o; cbn [stands_for initialised_only] in *; try contradiction; cbn; auto.
    + destruct (var r v); cbn; auto.
    + apply let_go_each. intros k Hk In1 k' In2. rewrite last_nth in Hk.
      destruct (proj1 (kn_live _ _ K k')) as (v & V). { apply in_map_iff. exists (k', KInsert). auto. }
      pose proof (var_out _ _ _ V) as L. destruct (Nat.eq_dec v (length (r_vars r) - 1)) as [->|Nv].
      * unfold var in V. rewrite Hk in V. injection V as ->. lia.
      * enough (k' < k) by lia. eapply I; [|exact V|exact Hk]. lia.
  - apply IH; auto; [apply knows_step; auto|eapply increasing_step; eauto].
Qed.

Lemma no_insert_lifo (ops : list (op T)) : forall c, Forall (fun o : op T => match o with OpInsert _ => False | _ => True end) ops ->
  (forall n, ~ In (n, KInsert) (c_live c)) -> each_call newest_first c ops.
Proof.
  induction ops as [|o ops IH]; intros c A N; cbn; auto. inversion A; subst. split.
  - destruct o; cbn; auto. intros X. destruct (N _ X).
  - apply IH; auto. intros n. destruct o; cbn; auto; try contradiction.
    + rewrite in_app_iff. intros [X|[X|[]]]; [destruct (N _ X)|discriminate X].
    + intros X. apply filter_In in X. destruct (N _ (proj1 X)).
Qed.

Lemma grabs_no_insert (ops : list (vop T)) : forall r, Forall grabs_only ops -> Forall (fun o : op T => match o with OpInsert _ => False | _ => True end) (calls_of r ops).
Proof.
  induction ops as [|o ops IH]; intros r A; cbn; auto. inversion A; subst. apply Forall_app. split; auto.
  assert (L : forall n, Forall (fun o : op T => match o with OpInsert _ => False | _ => True end) (let_go n)) by (intros [|]; repeat constructor).
  destruct o; cbn [stands_for grabs_only] in *; try contradiction; try (apply L); try (repeat constructor; fail).
  - apply Forall_app. split; [repeat constructor|apply L].
  - destruct (Nat.eq_dec v x); [constructor|apply L].
  - destruct (var r v); repeat constructor.
Qed.

Lemma single_lifo (ops : list (vop T)) : forall r c, each_statement in_scope r ops -> knows r c -> each_statement one_at_a_time r ops ->
  (forall a b, In (a, KInsert) (c_live c) -> In (b, KInsert) (c_live c) -> a = b) -> each_call newest_first c (calls_of r ops).
Proof.
  induction ops as [|o ops IH]; intros r c S K A U; cbn in *; auto. destruct S as (S & Ss). destruct A as (A & As).
  assert (Rel : forall k c, (forall a b, In (a, KInsert) (c_live c) -> In (b, KInsert) (c_live c) -> a = b) -> newest_first (T := T) c (OpRelease k)).
  { intros k c0 U0 X k' Y. rewrite (U0 _ _ X Y). lia. }
  assert (Rst : forall n c, (forall a b, In (a, KInsert) (c_live c) -> In (b, KInsert) (c_live c) -> a = b) ->
    each_call newest_first c (let_go (T := T) n) /\
    (forall a b, In (a, KInsert) (c_live (fold_left client_step (let_go (T := T) n) c)) -> In (b, KInsert) (c_live (fold_left client_step (let_go (T := T) n) c)) -> a = b)).
  { intros n c0 U0. split; [apply let_go_each; intros; apply Rel; auto|]. destruct n; cbn; auto. intros a b X Y.
    apply filter_In in X. apply filter_In in Y. eapply U0; [exact (proj1 X)|exact (proj1 Y)]. }
  assert (Gr : forall p a b, In (a, KInsert) (c_live (client_step c (OpGrab (T := T) p))) -> In (b, KInsert) (c_live (client_step c (OpGrab (T := T) p))) -> a = b).
  { intros p a b. cbn. rewrite !in_app_iff. cbn. intros [X|[X|[]]] [Y|[Y|[]]]; try discriminate. eauto. }
  assert (Is : (forall v, var r v = None) -> forall p a b, In (a, KInsert) (c_live (client_step c (OpInsert (T := T) p))) -> In (b, KInsert) (c_live (client_step c (OpInsert (T := T) p))) -> a = b).
  { intros N p. assert (L : c_live c = []).
    { destruct (c_live c) as [|e l] eqn:L; auto. exfalso. destruct (proj1 (kn_live _ _ K (fst e))) as (v & V); [rewrite L; left; reflexivity|]. rewrite N in V. discriminate V. }
    cbn. rewrite L. cbn. intros a b [X|[]] [Y|[]]. congruence. }
  enough (G : each_call newest_first c (stands_for r o) /\ forall a b, In (a, KInsert) (c_live (fold_left client_step (stands_for r o) c)) ->
                 In (b, KInsert) (c_live (fold_left client_step (stands_for r o) c)) -> a = b).
  { apply each_call_app. split; [apply G|]. apply (IH (read r o)); auto; [apply knows_step; auto|apply G]. }
  destruct o; cbn [stands_for one_at_a_time] in *; try (apply Rst; auto; fail); try (split; [split; exact I|exact U]).
  - split; [split; exact I|exact (Gr p)].
  - split; [split; exact I|exact (Is A p)].
  - cbn [app]. cbn [each_call fold_left]. destruct (Rst (var r v) (client_step c (OpGrab p)) (Gr p)). repeat split; auto.
  - cbn [app]. cbn [each_call fold_left]. destruct (Rst (var r v) (client_step c (OpInsert p)) (Is A p)). repeat split; auto.
  - destruct (Nat.eq_dec v x); [split; cbn; auto|apply Rst; auto].
  - destruct (var r v); cbn; auto.
Qed.
End Order.

(** ** Every anchor is released once *)

Section Once.
Context {T : Type}.

Definition live_only (c : client) (o : op T) : Prop :=
  match o with OpRelease n => In n (map fst (c_live c)) | _ => True end.

Definition tidy (c : client) : Prop := NoDup (map fst (c_live c)) /\ forall n, In n (map fst (c_live c)) -> n < c_acquired c.

Lemma tidy_step c (o : op T) : tidy c -> tidy (client_step c o).
Proof.
  intros (N & L). destruct o; cbn; try (split; assumption).
  1,2: split; cbn; [rewrite map_app; apply NoDup_snoc; auto; intros X; specialize (L _ X); cbn in L; lia
    |intros k X; rewrite map_app, in_app_iff in X; cbn in X; destruct X as [X|[<-|[]]]; [specialize (L _ X)|]; lia].
  split; cbn.
  - clear L. induction (c_live c) as [|e l IH]; cbn; [constructor|]. inversion N; subst. destruct (Nat.eqb (fst e) n); cbn; auto. constructor; auto.
    intros X. apply H1. apply in_map_iff in X. destruct X as (e' & <- & X). apply filter_In in X. apply in_map_iff. exists e'. tauto.
  - intros k X. apply L. apply in_map_iff in X. destruct X as (e' & <- & X). apply filter_In in X. apply in_map_iff. exists e'. tauto.
Qed.

Definition is_live (c : client) (n : nat) : nat := count_occ Nat.eq_dec (map fst (c_live c)) n.

Lemma is_live_le c n : tidy c -> is_live c n <= 1.
Proof. intros (N & _). apply (NoDup_count_occ Nat.eq_dec) with (x := n) in N. exact N. Qed.

Lemma count_filter (l : list (nat * kind)) n k :
  count_occ Nat.eq_dec (map fst (filter (fun e => negb (Nat.eqb (fst e) k)) l)) n = if Nat.eqb k n then 0 else count_occ Nat.eq_dec (map fst l) n.
Proof.
  induction l as [|e l IH]; cbn; [destruct (Nat.eqb k n); reflexivity|].
  destruct (Nat.eqb_spec (fst e) k); cbn; rewrite ?IH; destruct (Nat.eqb_spec k n), (Nat.eq_dec (fst e) n); subst; try congruence; auto.
Qed.

Lemma conserved n (ops : list (op T)) : forall c, tidy c -> each_call live_only c ops ->
  let c' := fold_left client_step ops c in
  c_acquired c <= c_acquired c' /\
  times_released n ops + is_live c' n = is_live c n + (if (c_acquired c <=? n) && (n <? c_acquired c') then 1 else 0).
Proof.
  induction ops as [|o ops IH]; intros c Ty A c'; subst c'; cbn [fold_left each_call] in *.
  - split; auto. destruct (Nat.leb_spec (c_acquired c) n), (Nat.ltb_spec n (c_acquired c)); cbn; lia.
  - destruct A as (A & As). destruct (IH _ (tidy_step _ o Ty) As) as (L & E). clear IH. set (c' := fold_left _ _ _) in *. unfold times_released in *. cbn [filter].
    destruct o; cbn [client_step c_acquired] in *; try (split; [lia|]; exact E).
    1,2: (split; [lia|]; revert E; unfold is_live at 2 4; cbn [c_live]; rewrite map_app, count_occ_app; cbn [map fst count_occ];
      pose proof (proj2 Ty) as Old; destruct (Nat.eq_dec (c_acquired c) n) as [<-|Ne];
      [assert (Z0 : count_occ Nat.eq_dec (map fst (c_live c)) (c_acquired c) = 0) by (apply count_occ_not_In; intros X; specialize (Old _ X); lia);
       rewrite Z0; destruct (Nat.leb_spec (S (c_acquired c)) (c_acquired c)), (Nat.leb_spec (c_acquired c) (c_acquired c)), (Nat.ltb_spec (c_acquired c) (c_acquired c')); cbn; lia
      |destruct (Nat.leb_spec (S (c_acquired c)) n), (Nat.leb_spec (c_acquired c) n), (Nat.ltb_spec n (c_acquired c')); cbn; lia]).
    split; [lia|]. revert E. unfold is_live at 2 4. cbn [c_live]. rewrite count_filter. destruct (Nat.eqb_spec n0 n) as [->|]; cbn [length]; [|lia].
    assert (P1 : count_occ Nat.eq_dec (map fst (c_live c)) n = 1).
    { pose proof (is_live_le c n Ty) as Q. unfold is_live in Q. apply (count_occ_In Nat.eq_dec) in A. lia. }
    rewrite P1. lia.
Qed.

Lemma releases_live (ops : list (vop T)) : forall r c, each_statement in_scope r ops -> knows r c -> each_call live_only c (calls_of r ops).
Proof.
  intros r c S K. assert (A : each_statement (fun _ _ => True) r ops) by (clear; revert r; induction ops; cbn; auto).
  revert S K A. apply statements_calls. clear. intros r c o S K _.
  assert (G : forall v, each_call live_only c (let_go (T := T) (var r v))).
  { intros v. apply let_go_each. intros k Hk. apply (kn_live _ _ K). eauto. }
  assert (G' : forall v q, each_call live_only (mkClient (c_live c ++ [q]) (Datatypes.S (c_acquired c)) (c_destroyed c)) (let_go (T := T) (var r v))).
  { intros v q. apply let_go_each. intros k Hk. cbn. rewrite map_app, in_app_iff. left. apply (kn_live _ _ K). eauto. }
  destruct o; cbn [stands_for each_call app live_only]; auto.
  - split; [exact I|apply G'].
  - split; [exact I|apply G'].
  - destruct (Nat.eq_dec v x); [exact I|apply G].
  - destruct (var r v); cbn; auto.
  - rewrite last_nth. apply G.
Qed.

Lemma released_once (ops : list (vop T)) n : each_statement in_scope reader_start ops -> n < r_acquired (read_all ops) ->
  (exists v, var (read_all ops) v = Some n /\ times_released n (calls_of reader_start ops) = 0) \/
  ((forall v, var (read_all ops) v <> Some n) /\ times_released n (calls_of reader_start ops) = 1).
Proof.
  intros S L. pose proof (knows_all ops _ _ S knows_start) as K. fold (read_all ops) in K.
  assert (Ty : tidy client_start) by (split; [constructor|intros k []]).
  destruct (conserved n _ _ Ty (releases_live ops _ _ S knows_start)) as (_ & E). set (c := fold_left client_step (calls_of reader_start ops) client_start) in *.
  rewrite (kn_count _ _ K) in E. cbn [c_acquired client_start Nat.leb andb] in E. replace (n <? r_acquired (read_all ops)) with true in E by (symmetry; apply Nat.ltb_lt; auto).
  change (is_live client_start n) with 0 in E.
  destruct (is_live c n) eqn:Q.
  - right. split; [|lia]. intros v V. unfold is_live in Q. apply count_occ_not_In in Q. apply Q. apply (kn_live _ _ K). eauto.
  - left. assert (I : In n (map fst (c_live c))) by (apply (count_occ_In Nat.eq_dec); unfold is_live in Q; lia). apply (kn_live _ _ K) in I. destruct I as (v & V). exists v. split; auto. lia.
Qed.
End Once.

(** ** The variables follow the native interface *)

Section Follow.
Context {T : Type} `{Num T}.
Implicit Types (w : vworld T) (r : reader) (c : client) (o : vop T).

Record follows r c w : Prop := {
  fo_vars : vw_vars w = r_vars r;
  fo_knows : knows r c;
  fo_agrees : agrees c (vw_model w) }.

Lemma calls_stand r c w o calls : follows r c w -> vw_calls w o = Ok calls -> calls = stands_for r o.
Proof.
  intros [V _ _] E. unfold vw_calls, holds in E. rewrite V in E. unfold stands_for, var. destruct o; cbn in E; try (injection E as <-; reflexivity).
  - injection E as <-. destruct (Nat.eqb_spec v x), (Nat.eq_dec v x); try contradiction; reflexivity.
  - destruct (nth v (r_vars r) None); [injection E as <-; reflexivity|discriminate E].
Qed.

Lemma first_out fuel m p q l m' us c : agrees c m -> q = OpGrab p \/ q = OpInsert p -> run fuel m (q :: l) = Ok (m', us) -> exists us', us = OHandle (c_acquired c) :: us'.
Proof.
  intros (_ & A & _) Q E. cbn [run] in E. destruct (step_op fuel m q) as [[m1 u]|] eqn:S; [|discriminate E]. cbn [bind fst snd] in E.
  destruct (run fuel m1 l) as [[m2 us2]|]; [|discriminate E]. cbn [bind fst snd] in E. injection E as <- <-.
  pose proof (handles_step _ _ _ _ _ S) as X. destruct Q as [-> | ->]; destruct X as (h & _ & ->); rewrite A; eauto.
Qed.

Lemma follows_step fuel r c w o w' us : in_scope r o -> follows r c w -> vw_do fuel w o = Ok (w', us) ->
  run fuel (vw_model w) (stands_for r o) = Ok (vw_model w', us) /\ follows (read r o) (fold_left client_step (stands_for r o) c) w'.
Proof.
  intros S Fo E. unfold vw_do in E. destruct (vw_calls w o) as [calls|] eqn:C; [|discriminate E]. cbn [bind] in E.
  rewrite (calls_stand _ _ _ _ _ Fo C) in *. clear C. destruct (run fuel (vw_model w) (stands_for r o)) as [[m' us']|] eqn:R; [|discriminate E].
  cbn [bind fst snd] in E. injection E as <- <-. split; [reflexivity|]. destruct Fo as [V K A]. constructor; cbn [vw_model vw_vars].
  - rewrite V. destruct o; cbn [vw_assign read r_vars stands_for] in *; auto.
    + destruct (first_out _ _ _ _ _ _ _ _ A (or_introl eq_refl) R) as (u & ->). rewrite (kn_count _ _ K). reflexivity.
    + destruct (first_out _ _ _ _ _ _ _ _ A (or_intror eq_refl) R) as (u & ->). rewrite (kn_count _ _ K). reflexivity.
    + cbn [app] in R. destruct (first_out _ _ _ _ _ _ _ _ A (or_introl eq_refl) R) as (u & ->). rewrite (kn_count _ _ K). reflexivity.
    + cbn [app] in R. destruct (first_out _ _ _ _ _ _ _ _ A (or_intror eq_refl) R) as (u & ->). rewrite (kn_count _ _ K). reflexivity.
    + destruct (Nat.eqb_spec v x), (Nat.eq_dec v x); try contradiction; reflexivity.
  - apply knows_step; auto.
  - eapply agrees_run; eauto.
Qed.

Lemma follows_run fuel ops : forall r c w w' us, each_statement in_scope r ops -> follows r c w -> vw_run fuel w ops = Ok (w', us) ->
  run fuel (vw_model w) (calls_of r ops) = Ok (vw_model w', us) /\ follows (fold_left read ops r) (fold_left client_step (calls_of r ops) c) w'.
Proof.
  induction ops as [|o ops IH]; intros r c w w' us S Fo E; cbn [vw_run calls_of fold_left] in *.
  - injection E as <- <-. auto.
  - destruct S as (S & Ss). destruct (vw_do fuel w o) as [[w1 us1]|] eqn:D; [|discriminate E]. cbn [bind fst snd] in E.
    destruct (vw_run fuel w1 ops) as [[w2 us2]|] eqn:R; [|discriminate E]. cbn [bind fst snd] in E. injection E as <- <-.
    destruct (follows_step _ _ _ _ _ _ _ S Fo D) as (A & B). destruct (IH _ _ _ _ _ Ss B R) as (C1 & C2).
    rewrite (run_app _ _ _ _ _ _ A), C1. split; [reflexivity|]. rewrite fold_left_app. exact C2.
Qed.

Lemma run_app_err fuel l1 : forall l2 (m : model T) e, run fuel m l1 = Err e -> run fuel m (l1 ++ l2) = Err e.
Proof.
  induction l1 as [|o l1 IH]; intros l2 m e E; cbn [run app] in *; [discriminate E|].
  destruct (step_op fuel m o) as [[m1 u]|]; cbn [bind fst snd] in *; [|exact E].
  destruct (run fuel m1 l1) as [[m2 us2]|] eqn:R; cbn [bind] in E; [discriminate E|]. injection E as ->. rewrite (IH l2 _ _ R). reflexivity.
Qed.

(** If no empty variable is moved, a program fails where its native calls fail. *)
Lemma follows_err fuel ops : forall r c w e, each_statement in_scope r ops -> each_statement sane r ops -> follows r c w -> vw_run fuel w ops = Err e ->
  run fuel (vw_model w) (calls_of r ops) = Err e.
Proof.
  induction ops as [|o ops IH]; intros r c w e S Sn Fo E; cbn [vw_run calls_of] in *; [discriminate E|].
  destruct S as (S & Ss). destruct Sn as (Sn & Sns). destruct (vw_do fuel w o) as [[w1 us1]|e1] eqn:D; cbn [bind fst snd] in E.
  - destruct (vw_run fuel w1 ops) as [[w2 us2]|] eqn:R; cbn [bind] in E; [discriminate E|]. injection E as ->.
    destruct (follows_step _ _ _ _ _ _ _ S Fo D) as (A & B). rewrite (run_app _ _ _ _ _ _ A), (IH _ _ _ _ Ss Sns B R). reflexivity.
  - injection E as ->. apply run_app_err. unfold vw_do in D. destruct (vw_calls w o) as [calls|e2] eqn:C; cbn [bind] in D.
    + rewrite (calls_stand _ _ _ _ _ Fo C) in D. destruct (run fuel (vw_model w) (stands_for r o)) as [[m' us']|]; cbn [bind] in D; [discriminate D|]. congruence.
    + exfalso. unfold vw_calls, holds in C. rewrite (fo_vars _ _ _ Fo) in C. destruct o; try discriminate C. cbn [sane] in Sn. unfold var in Sn.
      destruct (nth v (r_vars r) None); [discriminate C|congruence].
Qed.

Lemma follows_start p a b st next : follows reader_start client_start (vw_start p a b st next).
Proof. constructor; [reflexivity|apply knows_start|apply agrees_init]. Qed.

(** Safety from the order of releases. *)
Lemma program_safe p a b st next fuel ops e : compiles ops -> sane_program ops -> lifo_history (calls_of reader_start ops) ->
  vw_run fuel (vw_start p a b st next) ops = Err e -> e <> UseAfterFree /\ e <> OutOfBounds /\ e <> NullDeref /\ e <> MovedFrom.
Proof.
  intros S Sn L E. apply (follows_err _ _ _ _ _ _ S Sn (follows_start _ _ _ _ _)) in E. cbn [vw_start vw_model] in E.
  eapply lifo_safe; [|exact L|exact E]. apply sane_careful; auto. apply knows_start.
Qed.

(** A held anchor can be moved. *)
Lemma held_moves p a b st next fuel program m us d v n : compiles program -> sane_program program ->
  run fuel (model_init p a b st next) (calls_of reader_start program) = Ok (m, us) ->
  var (read_all program) v = Some n -> exists m', step_op fuel m (OpMoveAnchor n d) = Ok (m', ONone).
Proof.
  intros S Sn R X. pose proof (knows_all program _ _ S knows_start) as K.
  assert (C : careful_history (calls_of reader_start program ++ [OpMoveAnchor n d])).
  { apply each_call_app. split; [apply sane_careful; auto; apply knows_start|]. cbn. split; auto. apply (kn_live _ _ K). eauto. }
  destruct (step_op fuel m (OpMoveAnchor n d)) as [[m' u]|e] eqn:E.
  - unfold step_op in E. cbn [needs_model andb] in E. destruct (move_anchor n d m); [|discriminate E]. cbn [bind] in E. injection E as -> <-. eauto.
  - exfalso. assert (Rc : reached p a b st (calls_of reader_start program) m) by (exists fuel, next, us; exact R).
    pose proof (step_err_reached _ _ _ _ _ _ _ _ _ Rc C E) as Q. cbn in Q. subst e. unfold step_op in E. cbn [needs_model andb] in E.
    unfold move_anchor in E. destruct (lookup_handle (mhandles m) n) as [h|]; [|discriminate E]. destruct (malive m); [|discriminate E].
    destruct h as [i|s0 f0 g0 b0 a0]; [destruct (nth_error _ i); discriminate E|]. unfold rd_blk in E. destruct (nth_error _ b0) as [[[? ?]|]|]; discriminate E.
Qed.

End Follow.
