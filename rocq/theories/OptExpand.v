(** OptExpand.v: what the optimised song plays as (C24). *)
From Coq Require Import Sorted Arith.
From Verif Require Import Base ProofLib Command Track SeqTree Song SpecLoop TreeProofs TreeProofs2 OptProofs BuildProofs.
Open Scope list_scope.

Definition exp1 (trs : list track) (pc : pcmd) : list pcmd :=
  match cmd pc with CallLoop t k => copies (Z.to_nat k) (nth t trs []) | _ => [pc] end.
Definition exp (trs : list track) (l : list pcmd) : list pcmd := flat_map (exp1 trs) l.
Lemma exp_app trs a b : exp trs (a ++ b) = exp trs a ++ exp trs b. Proof. apply flat_map_app. Qed.
Lemma exp1_plain trs pc : (forall t n, cmd pc <> CallLoop t n) -> exp1 trs pc = [pc].
Proof. unfold exp1. intros H. destruct (cmd pc); try reflexivity. exfalso. eapply H. reflexivity. Qed.
Lemma exp_plain trs l : loop_free l -> exp trs l = l.
Proof. induction 1 as [|pc l H1 H2 IH]; cbn [exp flat_map]; [reflexivity|]. fold (exp trs l). rewrite exp1_plain, IH by exact H1. reflexivity. Qed.
Lemma copies_free k P : loop_free P -> loop_free (copies k P).
Proof. intros H. induction k; cbn [copies]; [constructor|]. apply Forall_app. auto. Qed.
Lemma may_free P : Forall may_loop P -> loop_free P.
Proof. intros H. eapply Forall_impl; [|exact H]. intros pc Hpc t n E. unfold may_loop in Hpc. rewrite E in Hpc. exact Hpc. Qed.

Lemma skipn_add {A} a b (l : list A) : skipn a (skipn b l) = skipn (b + a) l.
Proof. revert l. induction b as [|b IH]; intros l; [reflexivity|]. destruct l as [|x l]; cbn [skipn Nat.add]; [rewrite skipn_nil; reflexivity|apply IH]. Qed.
Lemma occurs_skipn P tr c : occurs P tr c -> skipn c tr = P ++ skipn (c + length P) tr.
Proof.
  intros (pre & post & -> & <-). rewrite <- skipn_add. rewrite skipn_app, Nat.sub_diag, skipn_all2 by lia. cbn [app skipn].
  rewrite skipn_app, Nat.sub_diag, (skipn_all2 P) by lia. reflexivity.
Qed.

(** Rewriting a track keeps what it plays as, if the locations are genuine. *)
Lemma exp_rewritten trs trs' P new tr : loop_free P -> nth new trs' [] = P -> (forall pc, In pc tr -> exp1 trs' pc = exp1 trs pc) ->
  forall ls from, chain tr (length P) from ls ->
  Forall (fun l => occurs (copies (Z.to_nat (repeat_count l)) P) tr (cmd_idx l)) ls ->
  exp trs' (rewritten tr (length P) new from ls) = exp trs (skipn from tr).
Proof.
  intros HP Hnew Hsame. 
  assert (Hseg : forall l, incl l tr -> exp trs' l = exp trs l).
  { induction l as [|pc l IH]; intros Hi; [reflexivity|]. cbn [exp flat_map]. fold (exp trs l) (exp trs' l). rewrite Hsame by (apply Hi; left; reflexivity).
    rewrite IH; [reflexivity|]. intros x Hx. apply Hi. right. exact Hx. }
  assert (Hsk : forall k, incl (skipn k tr) tr) by (intros k pc H; rewrite <- (firstn_skipn k tr); apply in_app_iff; right; exact H).
  induction ls as [|l ls IH]; intros from Hc Hg; cbn [rewritten].
  - apply Hseg, Hsk.
  - cbn [chain] in Hc. destruct Hc as (H1 & H2 & H3 & H4). inversion Hg as [|? ? Hl Hg']; subst.
    rewrite exp_app. cbn [exp flat_map]. fold (exp trs' (rewritten tr (length (nth new trs' [])) new (loc_end l (length (nth new trs' []))) ls)).
    rewrite IH by assumption. set (P := nth new trs' []) in *.
    rewrite <- (firstn_skipn (cmd_idx l - from) (skipn from tr)) at 2. rewrite exp_app. rewrite skipn_add. replace (from + (cmd_idx l - from))%nat with (cmd_idx l) by lia.
    rewrite (occurs_skipn _ _ _ Hl). rewrite exp_app. f_equal; [apply Hseg|f_equal].
    + intros pc Hpc. apply (Hsk from). rewrite <- (firstn_skipn (cmd_idx l - from) (skipn from tr)). apply in_app_iff. left. exact Hpc.
    + rewrite exp_plain by (apply copies_free; exact HP). reflexivity.
    + rewrite copies_length. f_equal. f_equal. unfold loc_end. lia.
Qed.

(** ** From the function to the relation. *)
Lemma plays_free song l : loop_free l -> plays_as song l l.
Proof. induction 1; constructor; assumption. Qed.
Lemma plays_exp n trs l : shape n trs -> Forall (call_in n (length trs)) l -> plays_as trs l (exp trs l).
Proof.
  intros [_ Hb] H. induction H as [|pc l Hpc H IH]; cbn [exp flat_map]; [constructor|]. fold (exp trs l).
  destruct (cmd pc) as [| | | | | | | | | | | | | | | | | |t k| | | | | | | | | | |] eqn:E; try (rewrite exp1_plain by congruence; constructor; [congruence|exact IH]).
  destruct (Hpc t k E) as [Ht Hk]. unfold exp1. rewrite E.
  destruct (nth_error trs t) as [body|] eqn:Eb; [|apply nth_error_None in Eb; lia].
  pose proof (nth_error_nth _ _ [] Eb) as En. unfold track in En |- *. rewrite En. eapply pa_call; [exact E|lia|exact Eb| |exact IH]. apply plays_free, may_free.
  assert (Hin : In body (skipn n trs)).
  { apply nth_error_In with (n := (t - n)%nat). rewrite <- (firstn_skipn n trs), nth_error_app2 in Eb by (rewrite firstn_length; lia).
    rewrite firstn_length_le in Eb by lia. exact Eb. }
  rewrite Forall_forall in Hb. apply Hb in Hin. apply Hin.
Qed.
Lemma plays_det song l o1 : plays_as song l o1 -> forall o2, plays_as song l o2 -> o1 = o2.
Proof.
  induction 1 as [|pc l out Hp H IH|pc t n body bo l out E Hn Hb Hpb IHb H IH]; intros o2 H2; inversion H2; subst; try reflexivity.
  - f_equal. auto.
  - exfalso. eapply Hp; eassumption.
  - exfalso. eapply H3; eassumption.
  - rewrite E in H3. injection H3 as <- <-. rewrite Hb in H5. injection H5 as <-. f_equal; [f_equal; auto|auto].
Qed.

(** ** One extraction. *)
Lemma step_exp n trs s trs' : shape n trs -> step n trs s trs' -> Forall (genuine (firstn n trs) (seq_cmds s)) (seq_locs s) ->
  forall i tr, (i < n)%nat -> nth_error trs i = Some tr -> exists tr', nth_error trs' i = Some tr' /\ exp trs' tr' = exp trs tr.
Proof.
  intros Hsh Hs Hg i tr Hi Htr. pose proof Hs as [Hn Hc Hl Ht Hr Hlen]. eexists. split; [apply Ht; eassumption|].
  change (exp trs tr) with (exp trs (skipn 0 tr)).
  assert (Hnth : forall t, (n <= t)%nat -> nth_error trs' t = nth_error (skipn n trs') (t - n)).
  { intros t Htn. rewrite <- (firstn_skipn n trs') at 1. rewrite nth_error_app2 by (rewrite Hl; exact Htn). rewrite Hl. reflexivity. }
  assert (Htrn : nth_error (firstn n trs) i = Some tr) by (rewrite nth_error_firstn by exact Hi; exact Htr).
  apply exp_rewritten.
  - apply may_free. apply (chosen_body _ _ Hc).
  - apply nth_error_nth. rewrite Hnth by exact Hn. rewrite Hr, nth_error_app2 by (rewrite skipn_length; lia). rewrite skipn_length, Nat.sub_diag. reflexivity.
  - intros pc Hpc. unfold exp1. destruct (cmd pc) as [| | | | | | | | | | | | | | | | | |t k| | | | | | | | | | |] eqn:E; try reflexivity.
    f_equal. assert (Hcall : call_in n (length trs) pc).
    { destruct Hsh as [H1 _]. rewrite Forall_forall in H1. specialize (H1 tr (nth_error_In _ _ Htrn)). rewrite Forall_forall in H1. apply H1, Hpc. }
    destruct (Hcall t k E) as [Hb _]. apply nth_error_nth. rewrite Hnth by lia. rewrite Hr, nth_error_app1 by (rewrite skipn_length; lia).
    rewrite <- (nth_error_nth' trs [] (proj2 Hb)). rewrite <- (firstn_skipn n trs) at 2. rewrite nth_error_app2 by (rewrite firstn_length_le; lia). rewrite firstn_length_le by exact Hn. reflexivity.
  - exact (chain_locs _ _ _ _ (proj1 Hc) Htrn).
  - apply Forall_forall. intros l Hin. apply filter_In in Hin. destruct Hin as [Hin Hti]. apply Nat.eqb_eq in Hti.
    rewrite Forall_forall in Hg. destruct (Hg l Hin) as (tr2 & Htr2 & Ho). rewrite Hti, Htrn in Htr2. injection Htr2 as <-. exact Ho.
Qed.

(** ** What every track plays as stays the same. *)
Definition same_music (n : nat) (orig trs : list track) : Prop :=
  shape n trs /\ forall i o, nth_error orig i = Some o -> exists tr, nth_error trs i = Some tr /\ exp trs tr = o.
Lemma same_music_start trs : Forall loop_free trs -> same_music (length trs) trs trs.
Proof.
  intros H. split; [apply shape_start; exact H|]. intros i o Ho. exists o. split; [exact Ho|]. apply exp_plain. rewrite Forall_forall in H. apply H. eapply nth_error_In; exact Ho.
Qed.
(** ** Songs whose repeats are fresh. *)
Lemma occurs_piece (seg R : track) call w x : (exists t k, cmd call = CallLoop t k) -> loop_free w -> w <> [] -> occurs w (seg ++ call :: R) x ->
  (x + length w <= length seg)%nat /\ occurs w seg x \/ (length seg < x)%nat /\ occurs w R (x - S (length seg)).
Proof.
  intros (t & k & Ecall) Hw Hne. rewrite !occurs_nth, app_length. cbn [length]. intros [H1 H2].
  assert (Hlen : (0 < length w)%nat) by (destruct w; [congruence|cbn [length]; lia]).
  assert (Hout : ~ (x <= length seg < x + length w)%nat).
  { intros Hx. specialize (H2 (length seg - x)%nat ltac:(lia)). replace (x + (length seg - x))%nat with (length seg) in H2 by lia.
    rewrite nth_error_app2, Nat.sub_diag in H2 by lia. cbn [nth_error] in H2. symmetry in H2. apply nth_error_In in H2. unfold loop_free in Hw. rewrite Forall_forall in Hw. exact (Hw _ H2 t k Ecall). }
  destruct (Nat.le_gt_cases (x + length w) (length seg)) as [Hle|Hgt].
  - left. split; [exact Hle|]. split; [exact Hle|]. intros k' Hk. rewrite <- H2 by exact Hk. symmetry. apply nth_error_app1. lia.
  - right. split; [lia|]. split; [lia|]. intros k' Hk. rewrite <- H2 by exact Hk. rewrite nth_error_app2 by lia.
    replace (x + k' - length seg)%nat with (S (x - S (length seg) + k')) by lia. reflexivity.
Qed.
Lemma occurs_seg tr from m w x : occurs w (firstn m (skipn from tr)) x -> w <> [] -> occurs w tr (from + x).
Proof.
  rewrite !occurs_nth. intros [H1 H2] Hne. assert (Hlen : (0 < length w)%nat) by (destruct w; [congruence|cbn [length]; lia]).
  rewrite firstn_length, skipn_length in H1. split; [lia|]. intros k Hk. rewrite <- H2 by exact Hk. rewrite nth_error_firstn by lia. rewrite nth_error_skipped. f_equal. lia.
Qed.
Lemma call_is_call new l : exists t k, cmd (call_cmd new l) = CallLoop t k. Proof. cbn. eauto. Qed.
Lemma rewritten_one tr n new w : loop_free w -> w <> [] -> (1 <= n)%nat -> forall ls from x, chain tr n from ls -> occurs w (rewritten tr n new from ls) x ->
  exists y, (from <= y)%nat /\ occurs w tr y.
Proof.
  intros Hw Hne Hn. induction ls as [|l ls IH]; intros from x Hc Ho; cbn [rewritten] in Ho.
  - exists (from + x)%nat. split; [lia|]. rewrite <- (firstn_all (skipn from tr)) in Ho. eapply occurs_seg; eassumption.
  - cbn [chain] in Hc. destruct Hc as (H1 & H2 & H3 & H4). destruct (occurs_piece _ _ _ _ _ (call_is_call new l) Hw Hne Ho) as [[_ H]|[_ H]].
    + exists (from + x)%nat. split; [lia|]. eapply occurs_seg; eassumption.
    + destruct (IH _ _ H4 H) as (y & Hy & Hoy). exists y. split; [|exact Hoy]. unfold loc_end in Hy. lia.
Qed.
(** Two passages of a rewritten track lie in the original either at the same distance, with the same
    commands between them, or with a loop body between them. *)
Lemma rewritten_two tr n new w v : loop_free w -> w <> [] -> loop_free v -> v <> [] -> (4 <= n)%nat -> forall ls from x x', chain tr n from ls -> (x < x')%nat ->
  occurs w (rewritten tr n new from ls) x -> occurs v (rewritten tr n new from ls) x' ->
  exists y y', occurs w tr y /\ occurs v tr y' /\
    (y' = (y + (x' - x))%nat /\ (forall k, (k < x' - x + length v)%nat -> nth_error (rewritten tr n new from ls) (x + k) = nth_error tr (y + k)) \/
     (y + length w + 4 <= y')%nat).
Proof.
  intros Hw Hwn Hv Hvn Hn. induction ls as [|l ls IH]; intros from x x' Hc Hx Ho Ho'; cbn [rewritten] in *.
  - exists (from + x)%nat, (from + x')%nat. rewrite <- (firstn_all (skipn from tr)) in Ho, Ho'. split; [eapply occurs_seg; eassumption|]. split; [eapply occurs_seg; eassumption|].
    left. split; [lia|]. intros k Hk. rewrite nth_error_skipped. f_equal. lia.
  - cbn [chain] in Hc. destruct Hc as (H1 & H2 & H3 & H4). set (seg := firstn (cmd_idx l - from) (skipn from tr)) in *.
    assert (Hseg : length seg = (cmd_idx l - from)%nat) by (apply firstn_length_le; rewrite skipn_length; lia).
    destruct (occurs_piece _ _ _ _ _ (call_is_call new l) Hw Hwn Ho) as [[Hb H]|[Hb H]]; destruct (occurs_piece _ _ _ _ _ (call_is_call new l) Hv Hvn Ho') as [[Hb' H']|[Hb' H']].
    + exists (from + x)%nat, (from + x')%nat. split; [eapply occurs_seg; eassumption|]. split; [eapply occurs_seg; eassumption|]. left. split; [lia|].
      intros k Hk. rewrite nth_error_app1 by lia. unfold seg. rewrite nth_error_firstn by lia. rewrite nth_error_skipped. f_equal. lia.
    + destruct (rewritten_one tr n new v Hv Hvn ltac:(lia) _ _ _ H4 H') as (y' & Hy' & Hoy'). exists (from + x)%nat, y'. split; [eapply occurs_seg; eassumption|]. split; [exact Hoy'|].
      right. assert (n * 1 <= n * Z.to_nat (repeat_count l))%nat by (apply Nat.mul_le_mono_l; lia). unfold loc_end in Hy'. lia.
    + lia.
    + destruct (IH _ (x - S (length seg))%nat (x' - S (length seg))%nat H4 ltac:(lia) H H') as (y & y' & Hy & Hy' & Hd). exists y, y'. split; [exact Hy|]. split; [exact Hy'|].
      destruct Hd as [[E Hk]|Hd]; [left|right; exact Hd]. split; [lia|]. intros k Hkk. rewrite <- Hk by lia. rewrite nth_error_app2 by lia.
      replace (x + k - length seg)%nat with (S (x - S (length seg) + k)) by lia. reflexivity.
Qed.
Lemma fresh_step n trs s trs' : fresh_repeats (firstn n trs) -> step n trs s trs' -> fresh_repeats (firstn n trs').
Proof.
  intros Hfr Hs i tr' w q Hi' H4 Hw Hq j tj' p Hj' Hp Hbefore. pose proof Hs as [Hn Hc Hl Ht Hr Hlen]. pose proof Hc as (Hca & Hc4 & _).
  assert (Hwf : loop_free w) by (apply may_free; exact Hw). assert (Hwn : w <> []) by (destruct w; [cbn in H4; lia|discriminate]).
  assert (Hold : forall k t', nth_error (firstn n trs') k = Some t' -> exists t, nth_error (firstn n trs) k = Some t /\ t' = rewritten t (length (seq_cmds s)) (length trs) 0 (locs_in k s) /\ chain t (length (seq_cmds s)) 0 (locs_in k s)).
  { intros k t' Hk. assert (Hkn : (k < n)%nat) by (rewrite <- Hl; eapply nth_error_lt; exact Hk). rewrite nth_error_firstn in Hk by exact Hkn.
    destruct (nth_error trs k) as [t|] eqn:Et; [|apply nth_error_None in Et; lia]. rewrite (Ht k t Hkn Et) in Hk. injection Hk as <-.
    exists t. rewrite nth_error_firstn by exact Hkn. split; [exact Et|]. split; [reflexivity|]. apply (chain_locs (firstn n trs)); [exact Hca|]. rewrite nth_error_firstn by exact Hkn. exact Et. }
  destruct (Hold i tr' Hi') as (tr & Htr & Etr & Hci). destruct (Hold j tj' Hj') as (tj & Htj & Etj & Hcj).
  assert (Hwwf : loop_free (w ++ w)) by (apply Forall_app; split; exact Hwf). assert (Hwwn : w ++ w <> []) by (destruct w; [congruence|discriminate]).
  destruct (Nat.eq_dec j i) as [->|Hji].
  - rewrite Hi' in Hj'. injection Hj' as <-. rewrite Htr in Htj. injection Htj as <-. rewrite Etr in Hp, Hq.
    destruct (rewritten_two tr (length (seq_cmds s)) (length trs) w (w ++ w) Hwf Hwn Hwwf Hwwn ltac:(lia) _ _ p q Hci ltac:(lia) Hp Hq) as (y & y' & Hy & Hy' & Hd).
    destruct Hd as [[E Hk]|Hd].
    + destruct (Hfr i tr w y' Htr H4 Hw Hy' i tr y Htr Hy ltac:(lia)) as (_ & Hb & Hper). split; [reflexivity|]. split; [lia|].
      intros k Hkk. rewrite app_length in Hk. rewrite Etr. replace k with (p + (k - p))%nat by lia. rewrite <- Nat.add_assoc. rewrite !Hk by lia. rewrite Nat.add_assoc. apply Hper. lia.
    + destruct (Hfr i tr w y' Htr H4 Hw Hy' i tr y Htr Hy ltac:(lia)) as (_ & Hb & _). lia.
  - exfalso. rewrite Etr in Hq. rewrite Etj in Hp. destruct (rewritten_one tj (length (seq_cmds s)) (length trs) w Hwf Hwn ltac:(lia) _ _ p Hcj Hp) as (y & _ & Hy).
    destruct (rewritten_one tr (length (seq_cmds s)) (length trs) (w ++ w) Hwwf Hwwn ltac:(lia) _ _ q Hci Hq) as (y' & _ & Hy').
    destruct (Hfr i tr w y' Htr H4 Hw Hy' j tj y Htj Hy ltac:(lia)) as (Hij & _). congruence.
Qed.
(** Songs without immediate repetitions are a special case. *)
Lemma no_repeat_fresh trs : Forall no_immediate_repeat trs -> fresh_repeats trs.
Proof.
  intros H i tr w q Htr H4 _ (pre & post & E & _). exfalso. rewrite Forall_forall in H. specialize (H tr (nth_error_In _ _ Htr) pre w post). rewrite <- app_assoc in E. specialize (H E). lia.
Qed.
Lemma same_music_step n orig trs s trs' : length orig = n -> same_music n orig trs /\ fresh_repeats (firstn n trs) -> step n trs s trs' -> same_music n orig trs' /\ fresh_repeats (firstn n trs').
Proof.
  intros Hlen [[Hsh Hm] Hfr] Hs. split; [|eapply fresh_step; eassumption].
  assert (Hg : Forall (genuine (firstn n trs) (seq_cmds s)) (seq_locs s)) by (pose proof (st_chosen _ _ _ _ Hs) as (Hc & H4 & _); apply (cd_fresh _ _ Hc Hfr); lia).
  split; [eapply shape_step; eassumption|]. intros i o Ho. destruct (Hm i o Ho) as (tr & Htr & E).
  assert (Hi : (i < n)%nat) by (apply nth_error_lt in Ho; lia). destruct (step_exp n trs s trs' Hsh Hs Hg i tr Hi Htr) as (tr' & Htr' & E'). exists tr'. split; [exact Htr'|congruence].
Qed.
Lemma optimize_same b trs r : Forall loop_free trs -> fresh_repeats trs -> optimize_call_loops b trs (length trs) = Ok r ->
  forall i o, nth_error trs i = Some o -> exists tr, nth_error r i = Some tr /\ plays_as r tr o.
Proof.
  intros Hf Hfr E i o Ho.
  assert (Hstart : same_music (length trs) trs trs /\ fresh_repeats (firstn (length trs) trs)) by (rewrite firstn_all; split; [exact (same_music_start trs Hf)|exact Hfr]).
  destruct (optimize_inv b (length trs) (fun t => same_music (length trs) trs t /\ fresh_repeats (firstn (length trs) t))
    (fun a s c => same_music_step (length trs) trs a s c eq_refl) _ _ _ (le_n _) Hstart E) as [[[Hsh Hm] _] Hlen].
  destruct (Hm i o Ho) as (tr & Htr & Eexp). exists tr. split; [exact Htr|]. rewrite <- Eexp. apply (plays_exp (length trs)); [exact Hsh|].
  destruct Hsh as [H1 _]. rewrite Forall_forall in H1. apply H1. apply nth_error_In with (n := i). rewrite nth_error_firstn; [exact Htr|]. apply nth_error_lt in Ho. exact Ho.
Qed.

(** ** In the words of the specification. *)
Lemma shape_wfl n trs : shape n trs -> well_formed_loops n trs.
Proof.
  intros [H1 H2]. split.
  - intros i tr pc t k Hi Htr Hin E. rewrite Forall_forall in H1. assert (Hx : In tr (firstn n trs)) by (eapply nth_error_In; rewrite nth_error_firstn by exact Hi; exact Htr).
    specialize (H1 tr Hx). rewrite Forall_forall in H1. apply (H1 pc Hin t k E).
  - intros i tr Hi Htr. assert (Hx : In tr (skipn n trs)).
    { destruct (Nat.le_gt_cases n (length trs)) as [Hn|Hn]; [|apply nth_error_lt in Htr; lia].
      apply nth_error_In with (n := (i - n)%nat). rewrite <- (firstn_skipn n trs), nth_error_app2 in Htr by (rewrite firstn_length; lia).
      rewrite firstn_length_le in Htr by exact Hn. exact Htr. }
    rewrite Forall_forall in H2. destruct (H2 tr Hx) as (Ha & Hb & Hc). split; [exact Ha|]. split; [exact Hb|].
    destruct tr as [|pc rest]; [destruct Hc|]. eauto.
Qed.
Lemma optimize_wfl b trs r : Forall loop_free trs -> optimize_call_loops b trs (length trs) = Ok r -> well_formed_loops (length trs) r.
Proof. intros H E. apply shape_wfl, (optimize_shape b); assumption. Qed.

Lemma fop_nth {A} (R : A -> A -> Prop) l : ForallOrdPairs R l -> forall i j a b, (i < j)%nat -> nth_error l i = Some a -> nth_error l j = Some b -> R a b.
Proof.
  induction 1 as [|x l Hx H IH]; intros i j a b Hij Ha Hb; [destruct i; discriminate|]. destruct j as [|j]; [lia|]. cbn [nth_error] in Hb.
  destruct i as [|i]; cbn [nth_error] in Ha; [|eapply IH; [|exact Ha|exact Hb]; lia]. injection Ha as <-. rewrite Forall_forall in Hx. apply Hx. eapply nth_error_In; exact Hb.
Qed.
Lemma candidate_sound trs s : candidate trs s -> sound_candidate trs s.
Proof.
  intros Hc. split.
  - intros l Hin. pose proof (cd_occ _ _ Hc) as H. rewrite Forall_forall in H. apply (H l Hin).
  - intros i j l l' Hij Hl Hl' Et. pose proof (fop_nth _ _ (cd_order _ _ Hc) i j l l' Hij Hl Hl') as Hb. unfold loc_before, loc_end in Hb.
    destruct Hb as [Hb|[_ Hb]]; [lia|]. split; [nia|]. unfold claims. intros k [[_ H1] [H2 _]]. lia.
Qed.
Lemma candidates_sound b trs : exists t ss, build_tree b empty_tree trs 0 = Ok t /\ sequences b [] t = Ok ss /\ Forall (sound_candidate trs) ss.
Proof.
  destruct (build_tree_all b trs) as (t & Et & Hw). destruct (sequences_ok b trs _ t Hw) as (ss & Es & Hss). exists t, ss. split; [exact Et|]. split; [exact Es|].
  eapply Forall_impl; [|exact Hss]. exact (candidate_sound trs).
Qed.
Lemma runs_genuine b trs t ss : fresh_repeats trs -> build_tree b empty_tree trs 0 = Ok t -> sequences b [] t = Ok ss ->
  forall s l, In s ss -> (4 <= length (seq_cmds s))%nat -> In l (seq_locs s) -> genuine trs (seq_cmds s) l.
Proof.
  intros Hfr Et Es s l Hs H4 Hl. destruct (build_tree_all b trs) as (t' & Et' & Hw). rewrite Et in Et'. injection Et' as <-. destruct (sequences_ok b trs _ t Hw) as (ss' & Es' & Hss).
  rewrite Es in Es'. injection Es' as <-. rewrite Forall_forall in Hss. pose proof (cd_fresh _ _ (Hss s Hs) Hfr H4) as Hg. rewrite Forall_forall in Hg. apply Hg, Hl.
Qed.
Lemma chosen_sound b trs t s : build_tree b empty_tree trs 0 = Ok t -> best_sequence b t = Ok (Some s) ->
  sound_candidate trs s /\ good_body (seq_cmds s) /\ Forall (fun l => 1 <= repeat_count l <= 4) (seq_locs s) /\ 2 <= zsum (map repeat_count (seq_locs s)).
Proof.
  intros Et Eb. pose proof (best_spec _ _ _ Et _ Eb s eq_refl) as Hc. pose proof Hc as (Hca & H4 & Htot). split; [apply candidate_sound; exact Hca|]. split.
  - destruct (chosen_body _ _ Hc) as (Ha & Hb & Hd). split; [exact Ha|]. split; [exact Hb|]. destruct (seq_cmds s) as [|pc rest]; [destruct Hd|]. eauto.
  - split; [apply (cd_count _ _ Hca)|]. unfold total in Htot. lia.
Qed.
Lemma optimize_ends trs n : (n <= length trs)%nat ->
  (exists r, optimize_call_loops Release trs n = Ok r) /\
  (optimize_call_loops Debug trs n = Panic POverflow \/ optimize_call_loops Debug trs n = optimize_call_loops Release trs n).
Proof. intros H. split; [apply optimize_terminates; exact H|]. exact (BuildProofs.ag_optimize trs n). Qed.
Lemma extraction_shorter b trs n t s : (n <= length trs)%nat -> build_tree b empty_tree (firstn n trs) 0 = Ok t -> best_sequence b t = Ok (Some s) ->
  exists trs', extract_sequence trs s n = Ok trs' /\ (total_length (firstn n trs') < total_length (firstn n trs))%nat.
Proof.
  intros Hn Et Eb. pose proof (best_spec _ _ _ Et _ Eb s eq_refl) as Hc. destruct (extract_step trs s n Hn Hc) as (trs' & E & Hs). exists trs'. split; [exact E|]. eapply step_shorter; exact Hs.
Qed.
(** One extraction whose locations are genuine runs keeps the music. *)
Lemma wfl_shape n trs : (n <= length trs)%nat -> well_formed_loops n trs -> shape n trs.
Proof.
  intros Hn [H1 H2]. split.
  - apply Forall_forall. intros tr Hin. apply In_nth_error in Hin. destruct Hin as [i Hi]. apply Forall_forall. intros pc Hpc t k E.
    assert (Hin : (i < n)%nat) by (apply nth_error_lt in Hi; rewrite firstn_length_le in Hi by exact Hn; exact Hi). rewrite nth_error_firstn in Hi by exact Hin.
    eapply H1; eassumption.
  - apply Forall_forall. intros tr Hin. apply In_nth_error in Hin. destruct Hin as [i Hi]. 
    destruct (H2 (n + i)%nat tr ltac:(lia)) as (Ha & Hb & pc & rest & E & Ht).
    { rewrite <- (firstn_skipn n trs), nth_error_app2 by (rewrite firstn_length; lia). rewrite firstn_length_le by exact Hn. rewrite <- Hi. f_equal. lia. }
    split; [exact Ha|]. split; [exact Hb|]. rewrite E. exact Ht.
Qed.
Lemma extraction_keeps b trs n t s : (n <= length trs)%nat -> well_formed_loops n trs -> build_tree b empty_tree (firstn n trs) 0 = Ok t -> best_sequence b t = Ok (Some s) ->
  Forall (genuine trs (seq_cmds s)) (seq_locs s) ->
  exists trs', extract_sequence trs s n = Ok trs' /\
    forall i tr out, (i < n)%nat -> nth_error trs i = Some tr -> plays_as trs tr out -> exists tr', nth_error trs' i = Some tr' /\ plays_as trs' tr' out.
Proof.
  intros Hn Hw Et Eb Hg. pose proof (best_spec _ _ _ Et _ Eb s eq_refl) as Hc. destruct (extract_step trs s n Hn Hc) as (trs' & E & Hs). exists trs'. split; [exact E|].
  intros i tr out Hi Htr Hp. pose proof (wfl_shape n trs Hn Hw) as Hsh. pose proof (shape_step _ _ _ _ Hsh Hs) as Hsh'.
  assert (Hg' : Forall (genuine (firstn n trs) (seq_cmds s)) (seq_locs s)).
  { apply Forall_forall. intros l Hl. rewrite Forall_forall in Hg. destruct (Hg l Hl) as (x & Hx & Ho). exists x. split; [|exact Ho].
    pose proof (cd_occ _ _ (proj1 Hc)) as Hocc. rewrite Forall_forall in Hocc. destruct (Hocc l Hl) as (y & Hy & _). apply nth_error_lt in Hy. unfold pos_of in Hy. cbn [fst] in Hy. rewrite firstn_length_le in Hy by exact Hn.
    rewrite nth_error_firstn by exact Hy. exact Hx. }
  destruct (step_exp n trs s trs' Hsh Hs Hg' i tr Hi Htr) as (tr' & Htr' & Ee). exists tr'. split; [exact Htr'|].
  assert (Ho : out = exp trs' tr').
  { rewrite Ee. eapply plays_det; [exact Hp|]. apply (plays_exp n); [exact Hsh|]. destruct Hsh as [H1 _]. rewrite Forall_forall in H1. apply H1. eapply nth_error_In. rewrite nth_error_firstn by exact Hi. exact Htr. }
  rewrite Ho. apply (plays_exp n); [exact Hsh'|]. destruct Hsh' as [H1 _]. rewrite Forall_forall in H1. apply H1. eapply nth_error_In. rewrite nth_error_firstn by exact Hi. exact Htr'.
Qed.
