(** MergeProofs.v: merging MIDI tracks into channels (C15). *)
From Coq Require Import ZArith List Bool Lia ZifyBool ZifyNat Permutation Sorted.
From Verif Require Import Base ProofLib Messages Track Midi SpecMidi.
Ltac Zify.zify_post_hook ::= Z.div_mod_to_equations.

(** ** push_at *)
Lemma push_at_ok {A} (l : list (list A)) i x r : push_at l i x = Ok r ->
  (i < length l)%nat /\ length r = length l /\
  forall j, nth j r [] = if Nat.eqb j i then nth j l [] ++ [x] else nth j l [].
Proof.
  unfold push_at. destruct (nth_error l i) as [y|] eqn:E; [|discriminate]. intros H.
  apply or_panic_ok in H. pose proof (set_nth_length _ _ _ _ H) as HL. split; [eapply nth_error_lt; eauto|].
  split; [exact HL|]. intros j. pose proof (set_nth_spec _ _ _ _ H j) as Hs.
  destruct (Nat.eqb_spec j i) as [Hj|Hn].
  - subst j. rewrite (nth_error_nth _ _ _ Hs), (nth_error_nth _ _ _ E). reflexivity.
  - destruct (nth_error l j) eqn:Ej.
    + rewrite (nth_error_nth _ _ _ Hs), (nth_error_nth _ _ _ Ej). reflexivity.
    + apply nth_error_None in Ej. rewrite !nth_overflow by lia. reflexivity.
Qed.
Lemma push_at_some {A} (l : list (list A)) i x : (i < length l)%nat -> exists r, push_at l i x = Ok r.
Proof.
  intros H. unfold push_at. destruct (nth_error l i) eqn:E.
  - destruct (set_nth_some l i (l0 ++ [x]) H) as [r ->]. simpl. eauto.
  - apply nth_error_None in E. lia.
Qed.
Lemma push_at_fail {A} (l : list (list A)) i x : (length l <= i)%nat -> push_at l i x = Panic PIndex.
Proof. intros H. unfold push_at. rewrite (proj2 (nth_error_None l i)); auto. Qed.

(** ** Distribution *)
Lemma channel_event e : channel e = Z.to_nat (event_channel e).
Proof. destruct e; reflexivity. Qed.

Lemma for_channel_nat c m t a : addressee m = Some a -> 0 <= a ->
  for_channel c (m, t) = Nat.eqb c (Z.to_nat a).
Proof. intros H Ha. unfold for_channel. simpl. rewrite H. destruct (Nat.eqb_spec c (Z.to_nat a)); lia. Qed.

Definition addr_nat (m : message) : option nat := option_map Z.to_nat (addressee m).
Lemma distribute_message_eq b chs t m :
  distribute_message b (chs, t) m =
  match addr_nat m with
  | Some c => let* t' := arith b 32 (t + delta m) in let* chs' := push_at chs c (m, t') in Ok (chs', t')
  | None => Ok (chs, t)
  end.
Proof. destruct m; reflexivity || (simpl; rewrite channel_event; reflexivity). Qed.

Lemma distribute_ok b l : forall chs t,
  length chs = 16%nat ->
  Forall (fun x => channel_ok (fst x) /\ 0 <= delta (fst x) /\ 0 <= snd x < 2 ^ 32) (timed t l) ->
  exists chs' t', ofold (distribute_message b) l (chs, t) = Ok (chs', t') /\ length chs' = 16%nat /\
    forall c, nth c chs' [] = nth c chs [] ++ filter (for_channel c) (timed t l).
Proof.
  induction l as [|m l IH]; intros chs t HL HF; cbn [ofold timed] in *.
  - exists chs, t. split; [reflexivity|]. split; [exact HL|]. intros c. simpl. rewrite app_nil_r. reflexivity.
  - inversion HF as [|x y (Hc & Hd & Ht) HF']; subst; clear HF. cbn [fst snd] in *.
    rewrite distribute_message_eq. unfold channel_ok in Hc. unfold addr_nat.
    destruct (addressee m) as [a|] eqn:Ea; cbn [option_map].
    + rewrite arith_exact by lia. cbn [bind].
      destruct (push_at_some chs (Z.to_nat a) (m, t + delta m)) as [chs1 E1]; [lia|]. rewrite E1. cbn [bind].
      destruct (push_at_ok _ _ _ _ E1) as (_ & HL1 & Hn).
      destruct (IH chs1 (t + delta m)) as (chs' & t' & E & HL' & Hn'); [lia|exact HF'|].
      exists chs', t'. split; [exact E|]. split; [exact HL'|]. intros c. rewrite Hn', Hn.
      cbn [filter]. rewrite (for_channel_nat c m _ a Ea) by lia.
      destruct (Nat.eqb c (Z.to_nat a)); [rewrite <- app_assoc|]; reflexivity.
    + cbn [bind]. assert (Hd0 : delta m = 0) by (destruct m; try discriminate; reflexivity).
      rewrite Hd0 in *. rewrite Z.add_0_r in *.
      destruct (IH chs t HL HF') as (chs' & t' & E & HL' & Hn'). exists chs', t'.
      split; [exact E|]. split; [exact HL'|]. intros c. rewrite Hn'. cbn [filter].
      unfold for_channel at 2. simpl. rewrite Ea. reflexivity.
Qed.
Lemma distribute_tracks_ok b ts : forall chs, length chs = 16%nat -> file_ok ts ->
  exists chs', ofold (distribute_track b) ts chs = Ok chs' /\ length chs' = 16%nat /\
    forall c, nth c chs' [] = nth c chs [] ++ file_order ts c.
Proof.
  induction ts as [|tr ts IH]; intros chs HL HF; cbn [ofold].
  - exists chs. split; [reflexivity|]. split; [exact HL|]. intros c. unfold file_order. simpl.
    rewrite app_nil_r; reflexivity.
  - inversion HF; subst. unfold distribute_track at 1.
    destruct (distribute_ok b tr chs 0 HL H1) as (chs1 & t1 & E1 & HL1 & Hn1). rewrite E1. cbn [bind fst].
    destruct (IH chs1 HL1 H2) as (chs' & E & HL' & Hn'). exists chs'. split; [exact E|]. split; [exact HL'|].
    intros c. rewrite Hn', Hn1. unfold file_order. cbn [flat_map]. rewrite filter_app, app_assoc. reflexivity.
Qed.

(** Debug: if distribution succeeds, all times fit. *)
Lemma distribute_debug_inv l : forall chs t chs' t', 0 <= t < 2 ^ 32 ->
  Forall (fun m => 0 <= delta m /\ match addressee m with Some a => 0 <= a | None => True end) l ->
  length chs = 16%nat ->
  ofold (distribute_message Debug) l (chs, t) = Ok (chs', t') ->
  length chs' = 16%nat /\
  Forall (fun x => channel_ok (fst x) /\ 0 <= delta (fst x) /\ 0 <= snd x < 2 ^ 32) (timed t l).
Proof.
  induction l as [|m l IH]; intros chs t chs' t' Ht Hd HL H; cbn [ofold timed] in *.
  - injection H as -> ->. split; [exact HL|constructor].
  - inversion Hd as [|? ? [Hd0 Ha] Hd']; subst. inv_bind H. destruct a as [chs1 t1].
    rewrite distribute_message_eq in Ha0. unfold addr_nat in Ha0.
    destruct (addressee m) as [a|] eqn:Ea; cbn [option_map] in Ha0.
    + inv_bind Ha0. inv_bind Ha0. injection Ha0 as -> ->. apply arith_debug in Ha1. destruct Ha1 as [-> Hr].
      destruct (push_at_ok _ _ _ _ Ha2) as (Hi & HL1 & _).
      destruct (IH _ _ _ _ Hr Hd' (eq_trans HL1 HL) H) as [HL' HF]. split; [exact HL'|].
      constructor; [|exact HF]. cbn [fst snd]. unfold channel_ok. rewrite Ea. lia.
    + injection Ha0 as -> ->. assert (Hd1 : delta m = 0) by (destruct m; try discriminate; reflexivity).
      rewrite Hd1, Z.add_0_r. destruct (IH _ _ _ _ Ht Hd' HL H) as [HL' HF]. split; [exact HL'|].
      constructor; [|exact HF]. cbn [fst snd]. unfold channel_ok. rewrite Ea. lia.
Qed.
Lemma distribute_tracks_debug_inv ts : forall chs chs', length chs = 16%nat ->
  Forall (Forall (fun m => 0 <= delta m /\ match addressee m with Some a => 0 <= a | None => True end)) ts ->
  ofold (distribute_track Debug) ts chs = Ok chs' -> file_ok ts.
Proof.
  induction ts as [|tr ts IH]; intros chs chs' HL HF H; [constructor|]. cbn [ofold] in H. inv_bind H.
  unfold distribute_track in Ha. inv_bind Ha. destruct a0 as [chs1 t1]. injection Ha as <-.
  inversion HF; subst.
  assert (H0 : 0 <= 0 < 2 ^ 32) by lia.
  destruct (distribute_debug_inv _ _ _ _ _ H0 H2 HL Ha0) as [HL1 Ht].
  constructor; [exact Ht|]. eapply IH; eauto.
Qed.

(** ** The sort *)
Lemma rank_priority m : priority m = rank m.
Proof. destruct m as [| ? [] | |]; try reflexivity. unfold rank. simpl. destruct (velocity =? 0); reflexivity. Qed.
Lemma key_leb_spec x y : key_leb (key x) (key y) = true <-> not_after x y.
Proof. unfold key_leb, key, not_after. cbn [fst snd]. rewrite !rank_priority. lia. Qed.
Lemma not_after_trans x y z : not_after x y -> not_after y z -> not_after x z.
Proof. unfold not_after. lia. Qed.
Lemma not_after_total x y : not_after x y \/ not_after y x.
Proof. unfold not_after. lia. Qed.

Lemma insert_perm m l : Permutation (m :: l) (insert_msg m l).
Proof.
  induction l as [|x l IH]; simpl; [reflexivity|]. destruct (key_leb (key m) (key x)); [reflexivity|].
  rewrite perm_swap. constructor. exact IH.
Qed.
Lemma insert_sorted m l : StronglySorted not_after l -> StronglySorted not_after (insert_msg m l).
Proof.
  induction l as [|x l IH]; intros H; simpl; [repeat constructor|].
  inversion H as [|? ? Hs Hf]; subst. destruct (key_leb (key m) (key x)) eqn:E.
  - apply key_leb_spec in E. constructor; [exact H|]. constructor; [exact E|].
    eapply Forall_impl; [|exact Hf]. intros y. apply not_after_trans; auto.
  - constructor; [apply IH; exact Hs|]. eapply Permutation_Forall; [apply insert_perm|].
    constructor; [|exact Hf]. destruct (not_after_total m x) as [Hm|]; auto.
    apply key_leb_spec in Hm. congruence.
Qed.
Lemma insert_stable k m l : filter (same_place k) (insert_msg m l) = filter (same_place k) (m :: l).
Proof.
  induction l as [|x l IH]; [reflexivity|]. cbn [insert_msg].
  destruct (key_leb (key m) (key x)) eqn:E; [reflexivity|].
  cbn [filter] in *. rewrite IH. unfold key_leb, key in E. cbn [fst snd] in E. rewrite !rank_priority in E.
  unfold same_place. destruct ((snd k =? snd m) && (rank (fst k) =? rank (fst m))) eqn:E1; [|reflexivity].
  destruct ((snd k =? snd x) && (rank (fst k) =? rank (fst x))) eqn:E2; [|reflexivity]. lia.
Qed.
Lemma sort_stable l : stable_sort_of l (sort_msgs l).
Proof.
  unfold stable_sort_of, sort_msgs. induction l as [|x l (Hp & Hs & Hf)].
  - split; [constructor|]. split; [constructor|reflexivity].
  - cbn [fold_right]. split.
    { rewrite <- insert_perm. constructor; exact Hp. }
    split; [apply insert_sorted; exact Hs|].
    intros k. rewrite insert_stable. cbn [filter]. rewrite Hf. reflexivity.
Qed.

Lemma nth_map_nil {A} (f : list A -> list A) l c : f [] = [] -> nth c (map f l) [] = f (nth c l []).
Proof. intros H. rewrite <- H at 1. apply map_nth. Qed.
Lemma nth_repeat_nil {A} n c : nth c (repeat (@nil A) n) [] = [].
Proof. revert c; induction n; destruct c; simpl; auto. Qed.

Lemma merge_ok b ts : file_ok ts ->
  exists chs, tracks_to_channels b ts = Ok chs /\ length chs = 16%nat /\
    forall c, stable_sort_of (file_order ts c) (nth c chs []).
Proof.
  intros HF. unfold tracks_to_channels.
  destruct (distribute_tracks_ok b ts (repeat [] 16)) as (chs & E & HL & Hn); [reflexivity|exact HF|].
  rewrite E. cbn [bind]. eexists. split; [reflexivity|]. split; [rewrite map_length; exact HL|].
  intros c. rewrite nth_map_nil by reflexivity. rewrite Hn. rewrite nth_repeat_nil. apply sort_stable.
Qed.
Lemma merge_debug_ok ts chs :
  Forall (Forall (fun m => 0 <= delta m /\ match addressee m with Some a => 0 <= a | None => True end)) ts ->
  tracks_to_channels Debug ts = Ok chs -> file_ok ts.
Proof.
  intros HF H. unfold tracks_to_channels in H. inv_bind H.
  eapply (distribute_tracks_debug_inv ts (repeat [] 16)); [reflexivity|exact HF|exact Ha].
Qed.
