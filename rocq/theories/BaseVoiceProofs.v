(** BaseVoiceProofs.v: the base voice search is sound and complete (C16, C17), and the intervals it works
    on describe the channels' sounding times. *)
From Coq Require Import ZArith List Bool Lia ZifyBool ZifyNat Permutation Sorted.
From Verif Require Import Base ProofLib Messages Track Midi SpecMidi SpecVoices MergeProofs.
Ltac Zify.zify_post_hook ::= Z.div_mod_to_equations.

Lemma upd_length {A} (l : list A) i f : length (upd l i f) = length l.
Proof.
  unfold upd. destruct (nth_error l i) eqn:E; [|reflexivity]. apply nth_error_lt in E.
  rewrite app_length, firstn_length. cbn [length]. rewrite skipn_length. lia.
Qed.
Lemma upd_nth {A} (l : list A) i f j d : (i < length l)%nat ->
  nth j (upd l i f) d = if Nat.eqb j i then f (nth i l d) else nth j l d.
Proof.
  intros Hi. unfold upd. destruct (nth_error l i) eqn:E; [|apply nth_error_None in E; lia].
  rewrite (nth_error_nth _ _ d E). apply nth_error_split in E. destruct E as (l1 & l2 & -> & <-).
  rewrite firstn_app, Nat.sub_diag, firstn_all, app_nil_r. cbn [firstn].
  replace (skipn (S (length l1)) (l1 ++ a :: l2)) with l2.
  2:{ rewrite skipn_app, skipn_all2 by lia. replace (S (length l1) - length l1)%nat with 1%nat by lia. reflexivity. }
  destruct (Nat.eqb_spec j (length l1)) as [Hj|Hj].
  - subst j. rewrite app_nth2 by lia. rewrite Nat.sub_diag. reflexivity.
  - destruct (Nat.lt_ge_cases j (length l1)).
    + rewrite !app_nth1 by lia. reflexivity.
    + rewrite !app_nth2 by lia. destruct (j - length l1)%nat eqn:Ej; [lia|]. reflexivity.
Qed.

(** ** The search as "first candidate that works". *)
Fixpoint first_some {A B} (f : A -> option B) (l : list A) : option B :=
  match l with [] => None | x :: l' => match f x with Some y => Some y | None => first_some f l' end end.
Lemma first_some_some {A B} (f : A -> option B) l y : first_some f l = Some y -> exists x, In x l /\ f x = Some y.
Proof.
  induction l as [|x l IH]; simpl; [discriminate|]. destruct (f x) eqn:E.
  - intros [= <-]. eauto.
  - intros H. destruct (IH H) as (z & Hz & Hy). eauto.
Qed.
Lemma first_some_none {A B} (f : A -> option B) l : first_some f l = None -> forall x, In x l -> f x = None.
Proof.
  induction l as [|x l IH]; simpl; [tauto|]. destruct (f x) eqn:E; [discriminate|].
  intros H z [<-|Hz]; auto.
Qed.
Lemma find_base_cons ch chs active :
  find_base_voices (ch :: chs) active =
  first_some (fun v => option_map (cons v) (find_base_voices chs (upd active v (fun l => l ++ ch))))
    (valid_voices ch active 0 false).
Proof.
  cbn [find_base_voices]. induction (valid_voices ch active 0 false) as [|v vs IH]; [reflexivity|].
  cbn [first_some]. destruct (find_base_voices chs (upd active v (fun l => l ++ ch))); [reflexivity|]. exact IH.
Qed.

Fixpoint fits (active : list (list interval)) (chs : list (list interval)) (base : list nat) : Prop :=
  match chs, base with
  | [], [] => True
  | ch :: cs, v :: bs =>
      (v < length active)%nat /\ overlapping ch (nth v active []) = false /\
      fits (upd active v (fun l => l ++ ch)) cs bs
  | _, _ => False
  end.

Lemma valid_in ch active : forall i fe v, In v (valid_voices ch active i fe) ->
  (i <= v < i + length active)%nat /\ overlapping ch (nth (v - i) active []) = false.
Proof.
  induction active as [|a active IH]; intros i fe v H; cbn [valid_voices] in H; [destruct H|].
  assert (Hrec : forall fe', In v (valid_voices ch active (S i) fe') ->
     (i <= v < i + length (a :: active))%nat /\ overlapping ch (nth (v - i) (a :: active) []) = false).
  { intros fe' H'. apply IH in H'. destruct H' as [Hv Ho]. cbn [length]. split; [lia|].
    replace (v - i)%nat with (S (v - S i)) by lia. exact Ho. }
  destruct (_ || _) in H; [|eauto]. destruct (overlapping ch a) eqn:E; [eauto|].
  destruct H as [<-|H]; [|eauto]. cbn [length]. split; [lia|]. rewrite Nat.sub_diag. exact E.
Qed.
Lemma valid_nonempty ch active : forall i fe v, (v < length active)%nat ->
  overlapping ch (nth v active []) = false -> nth v active [] <> [] -> In (i + v)%nat (valid_voices ch active i fe).
Proof.
  induction active as [|a active IH]; intros i fe v Hv Ho Hne; cbn [length] in Hv; [lia|].
  cbn [valid_voices]. destruct v as [|v]; cbn [nth] in *.
  - rewrite Ho. destruct a; [congruence|]. rewrite orb_true_r. rewrite Nat.add_0_r. left; reflexivity.
  - assert (Hi : forall fe', In (i + S v)%nat (valid_voices ch active (S i) fe')).
    { intros fe'. replace (i + S v)%nat with (S i + v)%nat by lia. apply IH; auto. lia. }
    destruct (_ || _); [destruct (overlapping ch a)|]; try apply Hi. right; apply Hi.
Qed.
Lemma overlapping_nil ch : overlapping ch [] = false.
Proof. unfold overlapping. induction ch; simpl; auto. Qed.
Lemma valid_empty ch active : forall i v, (v < length active)%nat -> nth v active [] = [] ->
  exists e, (e < length active)%nat /\ nth e active [] = [] /\ In (i + e)%nat (valid_voices ch active i false).
Proof.
  induction active as [|a active IH]; intros i v Hv He; cbn [length] in Hv; [lia|].
  cbn [valid_voices negb orb]. destruct a as [|x a].
  - exists O. split; [cbn [length]; lia|]. split; [reflexivity|]. rewrite overlapping_nil, Nat.add_0_r.
    left; reflexivity.
  - destruct v as [|v]; cbn [nth] in He; [discriminate|].
    destruct (IH (S i) v) as (e & He1 & He2 & He3); [lia|exact He|]. exists (S e).
    split; [cbn [length]; lia|]. split; [exact He2|]. replace (i + S e)%nat with (S i + e)%nat by lia.
    destruct (overlapping ch (x :: a)); [exact He3|right; exact He3].
Qed.

Lemma find_fits chs : forall active base, find_base_voices chs active = Some base -> fits active chs base.
Proof.
  induction chs as [|ch chs IH]; intros active base H.
  - injection H as <-. exact I.
  - rewrite find_base_cons in H. apply first_some_some in H. destruct H as (v & Hv & H).
    destruct (find_base_voices chs _) as [r|] eqn:E; [|discriminate]. injection H as <-.
    apply valid_in in Hv. destruct Hv as [Hv Ho]. rewrite Nat.sub_0_r in Ho. cbn [fits].
    split; [lia|]. split; [exact Ho|]. apply IH. exact E.
Qed.

(** Renaming voices. *)
Lemma fits_rename (sigma : nat -> nat) chs : forall active active' base,
  (forall v, (v < length active)%nat -> (sigma v < length active')%nat /\ nth (sigma v) active' [] = nth v active []) ->
  (forall v w, sigma v = sigma w -> v = w) ->
  fits active chs base -> fits active' chs (map sigma base).
Proof.
  induction chs as [|ch chs IH]; intros active active' base Hs Hi Hf; destruct base as [|v base]; cbn [fits map] in *;
    auto; try contradiction.
  destruct Hf as (Hv & Ho & Hf). destruct (Hs v Hv) as [Hv' Hn]. split; [exact Hv'|].
  split; [rewrite Hn; exact Ho|]. eapply IH; [|exact Hi|exact Hf].
  intros w Hw. rewrite upd_length in Hw. destruct (Hs w Hw) as [Hw' Hnw]. rewrite upd_length. split; [exact Hw'|].
  rewrite !upd_nth by assumption. destruct (Nat.eqb_spec w v) as [->|Hne].
  - rewrite Nat.eqb_refl, Hn. reflexivity.
  - destruct (Nat.eqb_spec (sigma w) (sigma v)) as [He|]; [apply Hi in He; congruence|exact Hnw].
Qed.
Definition swap (a b x : nat) : nat := if Nat.eqb x a then b else if Nat.eqb x b then a else x.
Lemma swap_inj a b v w : swap a b v = swap a b w -> v = w.
Proof.
  unfold swap. destruct (Nat.eqb_spec v a), (Nat.eqb_spec w a), (Nat.eqb_spec v b), (Nat.eqb_spec w b); lia.
Qed.

Lemma fits_find chs : forall active base, fits active chs base -> find_base_voices chs active <> None.
Proof.
  induction chs as [|ch chs IH]; intros active base Hf H; [discriminate|].
  destruct base as [|v base]; cbn [fits] in Hf; [contradiction|]. destruct Hf as (Hv & Ho & Hf).
  rewrite find_base_cons in H. pose proof (first_some_none _ _ H) as Hn. clear H.
  destruct (nth v active []) as [|x y] eqn:Ev.
  - destruct (valid_empty ch active 0 v Hv Ev) as (e & He & Hee & Hin). apply Hn in Hin. cbn [plus] in Hin.
    destruct (find_base_voices chs (upd active e _)) eqn:E; [discriminate|].
    eapply IH; [|exact E]. eapply (fits_rename (swap v e)); [|apply swap_inj|exact Hf].
    intros w Hw. rewrite upd_length in *. rewrite !upd_nth by assumption. unfold swap.
    destruct (Nat.eqb_spec w v) as [->|Hwv].
    + split; [exact He|]. rewrite Nat.eqb_refl, Hee, Ev. reflexivity.
    + destruct (Nat.eqb_spec w e) as [->|Hwe].
      * split; [exact Hv|]. destruct (Nat.eqb_spec v e); [congruence|]. rewrite Ev, Hee. reflexivity.
      * split; [exact Hw|]. destruct (Nat.eqb_spec w e); [congruence|]. reflexivity.
  - assert (Hne : nth v active [] <> []) by (rewrite Ev; discriminate). rewrite <- Ev in Ho.
    pose proof (valid_nonempty ch active 0 false v Hv Ho Hne) as Hin. apply Hn in Hin. cbn [plus] in Hin.
    destruct (find_base_voices chs (upd active v _)) eqn:E; [discriminate|]. eapply IH; [exact Hf|exact E].
Qed.

(** ** From the recursive to the pairwise formulation. *)
Lemma overlapping_app ch a b : overlapping ch (a ++ b) = overlapping ch a || overlapping ch b.
Proof.
  unfold overlapping. induction ch as [|x ch IH]; [reflexivity|]. cbn [existsb]. rewrite existsb_app, IH.
  destruct (existsb (overlaps x) a), (existsb (overlaps x) b),
    (existsb (fun a0 => existsb (overlaps a0) a) ch); reflexivity.
Qed.
Definition pairwise (active chs : list (list interval)) (base : list nat) : Prop :=
  length base = length chs /\ Forall (fun v => (v < length active)%nat) base /\
  (forall i a v, nth_error chs i = Some a -> nth_error base i = Some v -> overlapping a (nth v active []) = false) /\
  (forall i j a b v, (i < j)%nat -> nth_error chs i = Some a -> nth_error chs j = Some b ->
     nth_error base i = Some v -> nth_error base j = Some v -> overlapping b a = false).
Lemma fits_pairwise chs : forall active base, fits active chs base <-> pairwise active chs base.
Proof.
  induction chs as [|ch chs IH]; intros active base.
  - destruct base; cbn [fits]; split; intros H; try tauto.
    + split; [reflexivity|]. split; [constructor|]. split; intros [|i]; discriminate.
    + destruct H; discriminate.
  - destruct base as [|v base]; cbn [fits]; [split; intros H; [tauto|destruct H; discriminate]|].
    rewrite IH. unfold pairwise. rewrite upd_length. split.
    + intros (Hv & Ho & HL & HF & Hact & Hpw). split; [cbn; lia|]. split; [constructor; auto|].
      assert (Hrest : forall i a w, nth_error chs i = Some a -> nth_error base i = Some w ->
                overlapping a (nth w active []) = false /\ (w = v -> overlapping a ch = false)).
      { intros i a w Ha Hw. specialize (Hact i a w Ha Hw). rewrite upd_nth in Hact by exact Hv.
        destruct (Nat.eqb_spec w v) as [Hwv|Hwv]; [subst w|split; [exact Hact|congruence]].
        rewrite overlapping_app in Hact. apply orb_false_iff in Hact. tauto. }
      split.
      * intros [|i] a w; cbn [nth_error]; [intros [= <-] [= <-]; exact Ho|]. intros Ha Hw. eapply Hrest; eauto.
      * intros [|i] [|j] a b w Hij; try lia; cbn [nth_error].
        -- intros [= <-] Hb [= <-] Hw. eapply Hrest; eauto.
        -- intros. eapply (Hpw i j); eauto. lia.
    + intros (HL & HF & Hact & Hpw). inversion HF; subst. split; [assumption|].
      split; [apply (Hact O); reflexivity|]. split; [cbn in HL; lia|]. split; [assumption|]. split.
      * intros i a w Ha Hw. rewrite upd_nth by assumption. destruct (Nat.eqb_spec w v) as [->|Hwv].
        -- rewrite overlapping_app. apply orb_false_iff. split; [apply (Hact (S i)); assumption|].
           eapply (Hpw O (S i)); try reflexivity; try eassumption. lia.
        -- apply (Hact (S i)); assumption.
      * intros i j a b w Hij Ha Hb Hwa Hwb. eapply (Hpw (S i) (S j)); eauto. lia.
Qed.

Lemma overlapping_false a b : overlapping a b = false -> ~ clash a b.
Proof.
  intros H (t & (i & Hi & Hi1 & Hi2) & (j & Hj & Hj1 & Hj2)).
  assert (overlapping a b = true); [|congruence]. unfold overlapping. apply existsb_exists. exists i.
  split; [exact Hi|]. apply existsb_exists. exists j. split; [exact Hj|]. unfold overlaps. lia.
Qed.
Definition proper (l : list interval) : Prop := Forall (fun i => i_start i < i_end i) l.
Lemma overlapping_true a b : proper a -> proper b -> overlapping a b = true -> clash a b.
Proof.
  unfold proper. rewrite !Forall_forall. intros Ha Hb H. unfold overlapping in H. apply existsb_exists in H.
  destruct H as (i & Hi & H). apply existsb_exists in H. destruct H as (j & Hj & H). unfold overlaps in H.
  specialize (Ha i Hi). specialize (Hb j Hj). exists (Z.max (i_start i) (i_start j)).
  split; [exists i|exists j]; split; auto; split; try lia.
Qed.
Lemma clash_sym a b : clash a b -> clash b a.
Proof. intros (t & Ha & Hb). exists t. auto. Qed.

Lemma base_sound chs base : find_base_voices chs (repeat [] 8) = Some base -> conflict_free chs base.
Proof.
  intros H. apply find_fits, fits_pairwise in H. destruct H as (HL & HF & _ & Hp). split; [exact HL|].
  split; [exact HF|]. intros i j a b v Hne Ha Hb Hi Hj Hc.
  destruct (Nat.lt_trichotomy i j) as [Hij|[Hij|Hij]]; [|congruence|].
  - eapply overlapping_false; [eapply (Hp i j); eauto|]. apply clash_sym, Hc.
  - eapply overlapping_false; [eapply (Hp j i); eauto|]. exact Hc.
Qed.
Lemma base_complete chs : Forall proper chs -> find_base_voices chs (repeat [] 8) = None ->
  ~ exists base, conflict_free chs base.
Proof.
  intros HP H (base & HL & HF & Hc). eapply (fits_find chs (repeat [] 8) base); [|exact H].
  apply fits_pairwise. split; [exact HL|]. split; [exact HF|]. split.
  - intros i a v Ha Hv. rewrite nth_repeat_nil. apply overlapping_nil.
  - intros i j a b v Hij Ha Hb Hi Hj. destruct (overlapping b a) eqn:E; [|reflexivity]. exfalso.
    rewrite Forall_forall in HP. apply nth_error_In in Ha as Ha'. apply nth_error_In in Hb as Hb'.
    apply (Hc i j a b v); auto; [lia|]. apply clash_sym. apply overlapping_true; auto.
Qed.

(** ** The intervals describe the sounding times. *)
Lemma sounding_app l1 l2 t : sounding (l1 ++ l2) t = sounding l1 t + sounding l2 t.
Proof. induction l1 as [|[m t'] l1 IH]; cbn [sounding app]; [lia|]. rewrite IH. lia. Qed.
Lemma sounding_late l t t' : Forall (fun x => weight (fst x) = 0 \/ snd x <= t) l -> t <= t' -> sounding l t' = sounding l t.
Proof.
  induction l as [|[m x] l IH]; intros HF Ht; [reflexivity|]. inversion HF; subst. cbn [fst snd] in *.
  cbn [sounding]. rewrite IH by assumption. destruct (x <=? t) eqn:?, (x <=? t') eqn:?; lia.
Qed.

Definition is_note (m : message) : bool := note_on m || note_off m.
Lemma weight_zero m : is_note m = false <-> weight m = 0.
Proof. unfold is_note, weight. destruct (note_on m), (note_off m); simpl; split; intros; try reflexivity; try discriminate; lia. Qed.

Lemma interval_step_eq b i s m t :
  interval_step b i s (m, t) =
  match m with
  | MidiEvent _ _ =>
      let mx := if is_max s <? t then t else is_max s in
      if is_note m then
        let* a := arith b 64 (is_active s + weight m) in
        Ok (mk_istate (push_interval i s t) t a mx)
      else Ok (mk_istate (is_intervals s) (is_last_end s) (is_active s) mx)
  | _ => Ok s
  end.
Proof.
  unfold interval_step, is_note, weight, note_on, note_off. destruct m as [| ? [] | |]; try reflexivity.
  destruct (velocity =? 0); reflexivity.
Qed.

Definition iinv (s : istate) (l : list tmsg) : Prop :=
  proper (is_intervals s) /\ Forall (fun x => i_end x <= is_last_end s) (is_intervals s) /\
  0 <= is_last_end s /\
  Forall (fun x => is_note (fst x) = false \/ snd x <= is_last_end s) l /\
  is_active s = sounding l (is_last_end s) /\
  (forall t, 0 <= t < is_last_end s -> (sounds (is_intervals s) t <-> 0 < sounding l t)) /\
  (forall x, In x l -> is_note (fst x) = true -> snd x <= is_last_end s) /\
  (is_last_end s = 0 \/ exists x, In x l /\ is_note (fst x) = true /\ snd x = is_last_end s).

Lemma surplus_app l1 l2 : surplus (l1 ++ l2) = surplus l1 + surplus l2.
Proof. induction l1 as [|[m t] l1 IH]; cbn [app surplus]; lia. Qed.
Lemma surplus_sounding l t : Forall (fun x => is_note (fst x) = false \/ snd x <= t) l -> surplus l = sounding l t.
Proof.
  induction 1 as [|[m x] l H _ IH]; [reflexivity|]. cbn [fst snd] in H. cbn [surplus sounding]. rewrite IH.
  destruct H as [H|H]; [apply weight_zero in H; rewrite H; destruct (x <=? t); lia|]. replace (x <=? t) with true by lia. lia.
Qed.
(** The count is exact: in debug builds whatever the messages are, in release builds for balanced channels. *)
Definition exact_count (b : build) (l : list tmsg) : Prop := b = Debug \/ balanced l.
Lemma arith_exact b p m t q x : exact_count b (p ++ (m, t) :: q) -> arith b 64 (surplus p + weight m) = Ok x -> x = surplus p + weight m.
Proof.
  intros [->|Hb] H; [apply arith_debug in H; apply H|].
  assert (Hr : 0 <= surplus p + weight m < 2 ^ 64).
  { specialize (Hb (p ++ [(m, t)]) q). rewrite surplus_app in Hb. cbn [surplus] in Hb. rewrite <- app_assoc in Hb. specialize (Hb eq_refl). lia. }
  unfold arith in H. replace (0 <=? _) with true in H by lia. replace (_ <? _) with true in H by lia. injection H as <-. reflexivity.
Qed.

Lemma interval_inv b i l : forall s s' pre, exact_count b (pre ++ l) ->
  iinv s pre -> (forall x y, In x pre -> In y l -> snd x <= snd y) -> Sorted (fun x y => snd x <= snd y) l ->
  Forall (fun x => 0 <= snd x) l ->
  ofold (interval_step b i) l s = Ok s' -> iinv s' (pre ++ l).
Proof.
  induction l as [|[m t] l IH]; intros s s' pre Hex HI Hle Hs Hpos H; cbn [ofold] in H.
  - injection H as <-. rewrite app_nil_r. exact HI.
  - inv_bind H. rename a into s1. cut (iinv s' ((pre ++ [(m, t)]) ++ l)); [rewrite <- app_assoc; intros X; exact X|].
    assert (Hss : Forall (fun y => t <= snd y) l).
    { apply Sorted_StronglySorted in Hs; [|intros ? ? ?; lia]. inversion Hs; assumption. }
    inversion Hpos as [|? ? Hp1 Hp2]; subst; cbn [snd] in Hp1.
    assert (Hs' : Sorted (fun x y : tmsg => snd x <= snd y) l) by (inversion Hs; assumption). clear Hs.
    refine (IH s1 s' (pre ++ [(m, t)]) _ _ _ _ _ _); [rewrite <- app_assoc; exact Hex| | |exact Hs'|exact Hp2|exact H].
    2:{ intros x y Hx Hy. apply in_app_or in Hx. destruct Hx as [Hx|[<-|[]]].
        - apply Hle; [exact Hx|right; exact Hy].
        - rewrite Forall_forall in Hss. apply Hss; exact Hy. }
    clear IH H. destruct HI as (H1 & H2 & H3 & H4 & H5 & H6 & H7 & H8).
    assert (Hskip : is_note m = false ->
      iinv (mk_istate (is_intervals s) (is_last_end s) (is_active s) (is_max s1)) (pre ++ [(m, t)])).
    { intros Hn. unfold iinv. cbn [is_intervals is_last_end is_active].
      assert (Hw : forall u, sounding (pre ++ [(m, t)]) u = sounding pre u).
      { intros u. rewrite sounding_app. cbn [sounding]. apply weight_zero in Hn. rewrite Hn.
        destruct (t <=? u); lia. }
      split; [exact H1|]. split; [exact H2|]. split; [exact H3|]. split.
      { apply Forall_app. split; [exact H4|]. constructor; [left; exact Hn|constructor]. }
      split; [rewrite Hw; exact H5|]. split; [intros u Hu; rewrite Hw; apply H6; exact Hu|]. split.
      { intros x Hx Hxn. apply in_app_or in Hx. destruct Hx as [Hx|[<-|[]]]; [auto|]. simpl in Hxn. congruence. }
      destruct H8 as [H8|(x & Hx & Hx')]; [left; exact H8|right; exists x; split; auto; apply in_or_app; auto]. }
    rewrite interval_step_eq in Ha. destruct m as [dd ee da|dd ee|dd ee da|].
    1,3,4: injection Ha as <-; destruct s as [a1 a2 a3 a4]; apply (Hskip eq_refl).
    destruct (is_note (MidiEvent dd ee)) eqn:En.
    2:{ injection Ha as <-. apply Hskip. reflexivity. }
    cbv zeta in Ha. inv_bind Ha. injection Ha as <-.
    rewrite H5, <- (surplus_sounding pre (is_last_end s) H4) in Ha0. apply (arith_exact b pre _ t l) in Ha0; [|exact Hex].
    rewrite (surplus_sounding pre (is_last_end s) H4), <- H5 in Ha0. subst a.
    clear Hskip. set (m := MidiEvent dd ee) in *.
    assert (Hlast : is_last_end s <= t).
    { destruct H8 as [->|(x & Hx & _ & <-)]; [exact Hp1|]. apply (Hle x (m, t)); [exact Hx|left; reflexivity]. }
    assert (H4' : Forall (fun x => weight (fst x) = 0 \/ snd x <= is_last_end s) pre).
    { eapply Forall_impl; [|exact H4]. intros x [Hx|Hx]; [left; apply weight_zero; exact Hx|right; exact Hx]. }
    unfold iinv. cbn [is_intervals is_last_end is_active]. unfold push_interval.
    assert (Hin : forall x, In x (if is_last_end s <? t then is_intervals s ++ [mk_interval (is_last_end s) t i (is_active s)]
                                  else is_intervals s) ->
              In x (is_intervals s) \/ (is_last_end s < t /\ x = mk_interval (is_last_end s) t i (is_active s))).
    { intros x Hx. destruct (is_last_end s <? t) eqn:E; [|auto]. apply in_app_or in Hx.
      destruct Hx as [Hx|[<-|[]]]; [auto|right; split; [lia|reflexivity]]. }
    assert (Hin' : forall x, In x (is_intervals s) ->
             In x (if is_last_end s <? t then is_intervals s ++ [mk_interval (is_last_end s) t i (is_active s)]
                                  else is_intervals s)).
    { intros x Hx. destruct (is_last_end s <? t); auto. apply in_or_app; auto. }
    set (ivs := if is_last_end s <? t then _ else _) in *.
    split.
    { apply Forall_forall. intros x Hx. destruct (Hin x Hx) as [Hx'|[Hlt ->]].
      - unfold proper in H1. rewrite Forall_forall in H1. auto.
      - exact Hlt. }
    split.
    { apply Forall_forall. intros x Hx. destruct (Hin x Hx) as [Hx'|[Hlt ->]].
      - rewrite Forall_forall in H2. specialize (H2 x Hx'). lia.
      - cbn [i_end]. lia. }
    split; [lia|]. split.
    { apply Forall_app. split; [|constructor; [right; cbn; lia|constructor]].
      eapply Forall_impl; [|exact H4]. intros x [Hx|Hx]; [left; exact Hx|right; lia]. }
    split.
    { rewrite sounding_app. cbn [sounding]. rewrite (sounding_late pre (is_last_end s) t H4' Hlast). rewrite Z.leb_refl, H5. lia. }
    split.
    { intros u Hu. rewrite sounding_app. cbn [sounding]. replace (t <=? u) with false by lia.
      rewrite !Z.add_0_r. destruct (Z.lt_ge_cases u (is_last_end s)) as [Hlt|Hge].
      - rewrite <- H6 by lia. split.
        + intros (x & Hx & Hx1 & Hx2). destruct (Hin x Hx) as [Hx'|[_ ->]].
          * exists x; auto.
          * cbn [i_start] in Hx2. lia.
        + intros (x & Hx & Hx1). exists x. split; auto.
      - rewrite (sounding_late pre (is_last_end s) u H4' Hge), <- H5. split.
        + intros (x & Hx & Hx1 & Hx2). destruct (Hin x Hx) as [Hx'|[_ ->]].
          * rewrite Forall_forall in H2. specialize (H2 x Hx'). lia.
          * exact Hx1.
        + intros Hact. exists (mk_interval (is_last_end s) t i (is_active s)). split.
          * unfold ivs. replace (is_last_end s <? t) with true by lia. apply in_or_app. right; left; reflexivity.
          * cbn. lia. }
    split.
    { intros x Hx _. apply in_app_or in Hx. destruct Hx as [Hx|[<-|[]]]; [|cbn; lia].
      apply (Hle x (m, t)); [exact Hx|left; reflexivity]. }
    right. exists (m, t). split; [apply in_or_app; right; left; reflexivity|]. split; [exact En|reflexivity].
Qed.

Lemma interval_proper b i l : forall s s', ofold (interval_step b i) l s = Ok s' -> proper (is_intervals s) -> proper (is_intervals s').
Proof.
  induction l as [|[m t] l IH]; intros s s' H Hp; cbn [ofold] in H; [injection H as <-; exact Hp|]. inv_bind H.
  apply (IH _ _ H). rewrite interval_step_eq in Ha. destruct m as [|d e| |]; try (injection Ha as <-; exact Hp).
  destruct (is_note (MidiEvent d e)); [|injection Ha as <-; exact Hp]. cbv zeta in Ha. inv_bind Ha. injection Ha as <-.
  cbn [is_intervals]. unfold push_interval. destruct (is_last_end s <? t) eqn:E; [|exact Hp].
  apply Forall_app. split; [exact Hp|]. constructor; [cbn; lia|constructor].
Qed.

Lemma all_intervals_spec b chs : forall i mx ivs mx',
  all_intervals b chs i mx = Ok (ivs, mx') ->
  Forall (Sorted (fun x y => snd x <= snd y)) chs -> Forall (Forall (fun x => 0 <= snd x)) chs ->
  Forall2 (fun ch iv => proper iv /\ (exact_count b ch -> forall t, 0 <= t -> before_end ch t -> (sounds iv t <-> 0 < sounding ch t))) chs ivs.
Proof.
  induction chs as [|ch chs IH]; intros i mx ivs mx' H Hs Hp; cbn [all_intervals] in H.
  - injection H as <- <-. constructor.
  - inv_bind H. inv_bind H. injection H as <- <-. inversion Hs; subst. inversion Hp; subst.
    destruct a0 as [ivs' mx2]. cbn [fst]. constructor; [|eapply IH; eauto].
    split; [apply (interval_proper _ _ _ _ _ Ha); constructor|]. intros Hex.
    assert (HI : iinv a ([] ++ ch)).
    { eapply interval_inv; [exact Hex| | | | |exact Ha]; auto.
      - unfold iinv. cbn. repeat split; try constructor; try lia; try reflexivity; intros; try tauto; lia.
      - intros x y []. }
    cbn [app] in HI. destruct HI as (H1' & _ & _ & _ & _ & H6 & H7 & _).
    intros t Ht (m & t' & Hin & Hn & Hlt). apply H6. split; [exact Ht|].
    specialize (H7 (m, t') Hin Hn). cbn in H7. lia.
Qed.
