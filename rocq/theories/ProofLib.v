(** ProofLib.v: general lemmas used by the proofs (no model content). *)
From Coq Require Import ZArith List Bool Lia ZifyBool ZifyNat.
From Verif Require Import Base.
Ltac Zify.zify_post_hook ::= Z.div_mod_to_equations.

(** Finite sweeps over [0..n-1]. *)
Definition zrange (n : nat) : list Z := map Z.of_nat (seq 0 n).
Lemma zrange_in n x : 0 <= x < Z.of_nat n -> In x (zrange n).
Proof.
  intros H. unfold zrange. apply in_map_iff. exists (Z.to_nat x). split; [lia|].
  apply in_seq. lia.
Qed.
Lemma sweep1 n (P : Z -> bool) :
  forallb P (zrange n) = true -> forall x, 0 <= x < Z.of_nat n -> P x = true.
Proof. intros H x Hx. rewrite forallb_forall in H. apply H, zrange_in, Hx. Qed.
Lemma sweep2 n m (P : Z -> Z -> bool) :
  forallb (fun x => forallb (P x) (zrange m)) (zrange n) = true ->
  forall x y, 0 <= x < Z.of_nat n -> 0 <= y < Z.of_nat m -> P x y = true.
Proof.
  intros H x y Hx Hy. rewrite forallb_forall in H. specialize (H x (zrange_in n x Hx)).
  rewrite forallb_forall in H. apply H, zrange_in, Hy.
Qed.

(** Outcomes. *)
Lemma bind_ok {A B} (o : outcome A) (f : A -> outcome B) r :
  bind o f = Ok r -> exists a, o = Ok a /\ f a = Ok r.
Proof. destruct o; simpl; intros; try discriminate. eauto. Qed.
Lemma or_panic_ok {A} p (o : option A) a : or_panic p o = Ok a -> o = Some a.
Proof. destruct o; simpl; intros; congruence. Qed.

Ltac inv_bind H :=
  let a := fresh "a" in let Ha := fresh "Ha" in
  apply bind_ok in H; destruct H as (a & Ha & H).

Lemma ofold_app {A S} (f : S -> A -> outcome S) l1 l2 s :
  ofold f (l1 ++ l2) s = bind (ofold f l1 s) (ofold f l2).
Proof.
  revert s; induction l1 as [|x l1 IH]; intros s; [reflexivity|].
  cbn [ofold app]. destruct (f s x); simpl; auto.
Qed.

Lemma ofold_inv {A S} (P : S -> Prop) (f : S -> A -> outcome S) l s s' :
  (forall s x s', In x l -> P s -> f s x = Ok s' -> P s') -> P s -> ofold f l s = Ok s' -> P s'.
Proof.
  revert s; induction l as [|x l IH]; intros s Hf Hs H; cbn [ofold] in H.
  - congruence.
  - inv_bind H. eapply IH; [| |exact H].
    + intros; eapply Hf; eauto. right; auto.
    + eapply Hf; eauto. left; auto.
Qed.

Lemma arith_ok b bits x r : 0 <= bits -> arith b bits x = Ok r -> 0 <= r < 2 ^ bits.
Proof.
  intros Hb. unfold arith. destruct (0 <=? x) eqn:E1; destruct (x <? 2 ^ bits) eqn:E2; simpl; intros H.
  1: injection H as <-; lia.
  all: destruct b; [discriminate|]; injection H as <-; apply Z.mod_pos_bound; lia.
Qed.
Lemma arith_exact b bits x : 0 <= x < 2 ^ bits -> arith b bits x = Ok x.
Proof.
  intros H. unfold arith. destruct (0 <=? x) eqn:E1; destruct (x <? 2 ^ bits) eqn:E2; simpl; auto; lia.
Qed.
Lemma arith_debug bits x r : arith Debug bits x = Ok r -> r = x /\ 0 <= x < 2 ^ bits.
Proof.
  unfold arith. destruct (0 <=? x) eqn:E1; destruct (x <? 2 ^ bits) eqn:E2; simpl; intros H;
    try discriminate. injection H as <-; lia.
Qed.
Lemma arith_release_ok bits x : exists r, arith Release bits x = Ok r.
Proof. unfold arith. destruct ((0 <=? x) && (x <? 2 ^ bits)); eauto. Qed.

(** Lists. *)
Lemma last_opt_app {A} (l : list A) x : last_opt (l ++ [x]) = Some x.
Proof.
  induction l as [|y l IH]; [reflexivity|]. simpl. rewrite IH. destruct (l ++ [x]) eqn:E; [|reflexivity].
  destruct l; discriminate.
Qed.
Lemma last_opt_nil {A} (l : list A) : last_opt l = None -> l = [].
Proof.
  induction l as [|x l IH]; [reflexivity|]. intros H. destruct l; [discriminate|].
  change (last_opt (a :: l) = None) in H. apply IH in H. discriminate.
Qed.
Lemma last_opt_some {A} (l : list A) x : last_opt l = Some x -> exists l', l = l' ++ [x].
Proof.
  destruct (rev l) as [|y r] eqn:E.
  - apply (f_equal (@rev A)) in E. rewrite rev_involutive in E. subst. discriminate.
  - apply (f_equal (@rev A)) in E. rewrite rev_involutive in E. simpl in E. subst l.
    rewrite last_opt_app. intros [= ->]. eauto.
Qed.
Lemma set_nth_length {A} (l : list A) i v r : set_nth l i v = Some r -> length r = length l.
Proof.
  revert i r; induction l as [|x l IH]; intros [|i] r; simpl; intros H; try discriminate.
  - injection H as <-; reflexivity.
  - destruct (set_nth l i v) eqn:E; [|discriminate]. injection H as <-. simpl. f_equal. eauto.
Qed.
Lemma set_nth_some {A} (l : list A) i v : (i < length l)%nat -> exists r, set_nth l i v = Some r.
Proof.
  revert i; induction l as [|x l IH]; intros [|i]; simpl; intros H; try lia; eauto.
  destruct (IH i) as [r ->]; [lia|eauto].
Qed.
Lemma set_nth_spec {A} (l : list A) i v r :
  set_nth l i v = Some r ->
  forall j, nth_error r j = if Nat.eqb j i then Some v else nth_error l j.
Proof.
  revert i r; induction l as [|x l IH]; intros [|i] r; simpl; intros H; try discriminate.
  - injection H as <-. intros [|j]; reflexivity.
  - destruct (set_nth l i v) eqn:E; [|discriminate]. injection H as <-.
    intros [|j]; simpl; [reflexivity|]. eapply IH; eauto.
Qed.
Lemma set_nth_none {A} (l : list A) i v : set_nth l i v = None <-> (length l <= i)%nat.
Proof.
  split.
  - intros H. destruct (Nat.le_gt_cases (length l) i) as [|Hi]; auto.
    destruct (set_nth_some l i v Hi) as [r Hr]. congruence.
  - revert i; induction l as [|x l IH]; intros [|i] H; simpl in *; try lia; auto.
    rewrite IH; [reflexivity|lia].
Qed.
Lemma nth_error_ext {A} (l l' : list A) : (forall i, nth_error l i = nth_error l' i) -> l = l'.
Proof.
  revert l'; induction l as [|x l IH]; intros [|y l'] H; auto.
  - specialize (H O); discriminate.
  - specialize (H O); discriminate.
  - pose proof (H O) as H0. injection H0 as ->. f_equal. apply IH. intros i. apply (H (S i)).
Qed.
Lemma nth_error_lt {A} (l : list A) i x : nth_error l i = Some x -> (i < length l)%nat.
Proof. intros H. apply nth_error_Some. congruence. Qed.
