(** OptProofs.v: extraction and the optimiser loop (C24-C26). *)
From Coq Require Import Sorted Arith.
From Verif Require Import Base ProofLib Command Track SeqTree Song SpecLoop TreeProofs TreeProofs2 SongProofs.
Open Scope list_scope.

(** ** The chosen sequence. *)
Definition chosen (trs : list track) (s : sequence) : Prop :=
  candidate trs s /\ (3 < length (seq_cmds s))%nat /\ 1 < total (seq_locs s).
Lemma best_of_spec b trs ss : Forall (candidate trs) ss -> forall o r,
  (forall s sc, o = Some (s, sc) -> chosen trs s) -> best_of b o ss = Ok r -> forall s sc, r = Some (s, sc) -> chosen trs s.
Proof.
  induction 1 as [|s0 ss Hs H IH]; intros o r Ho E s sc Er; cbn [best_of] in E.
  - injection E as ->. eapply Ho; exact Er.
  - inv_bind E. destruct a; [|eapply IH; eassumption]. inv_bind E.
    assert (Hch : chosen trs s0) by (split; [exact Hs|eapply kept_spec; eassumption]).
    assert (Hnew : forall s1 sc1, Some (s0, a) = Some (s1, sc1) -> chosen trs s1) by (intros ? ? Hx; injection Hx as -> _; exact Hch).
    destruct o as [[s1 sc1]|]; [destruct (sc1 <=? a)|]; eapply IH; try exact E; try exact Er; try exact Hnew; exact Ho.
Qed.
Lemma ofold_release {A S} (f : S -> A -> outcome S) l : (forall s a, exists s', f s a = Ok s') -> forall s, exists s', ofold f l s = Ok s'.
Proof. intros H. induction l as [|a l IH]; intros s; cbn [ofold]; [eauto|]. destruct (H s a) as (s' & ->). apply IH. Qed.
Lemma best_of_total ss : forall o, exists r, best_of Release o ss = Ok r.
Proof.
  induction ss as [|s ss IH]; intros o; cbn [best_of]; [eauto|].
  assert (Hk : exists k, keep_sequence Release s = Ok k).
  { unfold keep_sequence. destruct (Nat.ltb _ _); [|eauto]. unfold total_repeats_u8.
    destruct (ofold_release (fun acc l => arith Release 8 (acc + repeat_count l)) (seq_locs s)) with (s := 0) as (n & ->); [intros; apply arith_release_ok|eexists; reflexivity]. }
  destruct Hk as ([|] & ->); cbn [bind]; [|apply IH]. unfold score. match goal with |- context [arith Release 64 ?x] => destruct (arith_release_ok 64 x) as (sc & ->) end. cbn [bind].
  destruct o as [[s1 sc1]|]; [destruct (sc1 <=? sc)|]; apply IH.
Qed.
Lemma best_spec b trs t : build_tree b empty_tree trs 0 = Ok t -> forall o, best_sequence b t = Ok o -> forall s, o = Some s -> chosen trs s.
Proof.
  intros Et o E s Eo. destruct (build_tree_all b trs) as (t' & Et' & Hw). rewrite Et in Et'. injection Et' as <-.
  destruct (sequences_ok b trs _ t Hw) as (ss & Es & Hss). unfold best_sequence in E. rewrite Es in E. cbn [bind] in E. inv_bind E. injection E as <-.
  destruct a as [[s1 sc]|]; [|discriminate]. cbn in Eo. injection Eo as ->. eapply best_of_spec; [exact Hss| |exact Ha|reflexivity]. discriminate.
Qed.
Lemma best_total trs : exists t o, build_tree Release empty_tree trs 0 = Ok t /\ best_sequence Release t = Ok o.
Proof.
  destruct (build_tree_all Release trs) as (t & Et & Hw). destruct (sequences_ok Release trs _ t Hw) as (ss & Es & Hss).
  exists t. unfold best_sequence. rewrite Es. cbn [bind]. destruct (best_of_total ss None) as (r & ->). eexists. split; [exact Et|reflexivity].
Qed.

(** ** Rewriting a track. *)
Definition call_cmd (new : nat) (l : location) : pcmd := mk_pcmd (Some 0) (Some 0) (Some 0) (CallLoop new (repeat_count l)).
Fixpoint rewritten (tr : track) (n new from : nat) (ls : list location) : track :=
  match ls with
  | [] => skipn from tr
  | l :: ls' => firstn (cmd_idx l - from) (skipn from tr) ++ call_cmd new l :: rewritten tr n new (loc_end l n) ls'
  end.
Fixpoint chain (tr : track) (n from : nat) (ls : list location) : Prop :=
  match ls with
  | [] => True
  | l :: ls' => (from <= cmd_idx l)%nat /\ (cmd_idx l + n <= length tr)%nat /\ 1 <= repeat_count l <= 4 /\ chain tr n (loc_end l n) ls'
  end.
Lemma extract_track_ok tr n new : forall ls last acc, chain tr n (oelse last 0%nat) ls ->
  extract_track tr ls n new last acc = Ok (acc ++ rewritten tr n new (oelse last 0%nat) ls).
Proof.
  induction ls as [|l ls IH]; intros last acc Hc; cbn [extract_track rewritten].
  - destruct last as [li|]; cbn [oelse].
    + destruct (Nat.ltb_spec li (length tr)) as [H|H].
      * unfold slice. destruct (Nat.leb_spec li (length tr)); [|lia]. rewrite Nat.leb_refl. cbn [andb bind]. rewrite firstn_all2 by (rewrite skipn_length; lia). reflexivity.
      * rewrite skipn_all2 by lia. rewrite app_nil_r. reflexivity.
    + unfold slice. rewrite Nat.leb_refl. cbn [Nat.leb andb bind skipn]. rewrite Nat.sub_0_r, firstn_all. reflexivity.
  - cbn [chain] in Hc. destruct Hc as (H1 & H2 & H3 & H4). unfold slice.
    destruct (Nat.leb_spec (oelse last 0%nat) (cmd_idx l)); [|lia]. destruct (Nat.leb_spec (cmd_idx l) (length tr)); [|lia]. cbn [andb bind].
    rewrite IH by exact H4. cbn [oelse]. rewrite <- !app_assoc. reflexivity.
Qed.
Lemma rewritten_shorter tr n new : (4 <= n)%nat -> forall ls from, chain tr n from ls -> (from <= length tr \/ ls = [])%nat ->
  (length (rewritten tr n new from ls) + 3 * length ls <= length tr - from)%nat.
Proof.
  intros Hn. induction ls as [|l ls IH]; intros from Hc Hf; cbn [rewritten length].
  - rewrite skipn_length. lia.
  - cbn [chain] in Hc. destruct Hc as (H1 & H2 & H3 & H4). rewrite app_length, firstn_length_le by (rewrite skipn_length; lia). cbn [length].
    assert (He : (cmd_idx l + n <= loc_end l n)%nat) by (unfold loc_end; nia).
    assert (Hl : (loc_end l n <= length tr \/ ls = [])%nat) by (destruct ls as [|l' ls]; [right; reflexivity|left; cbn [chain] in H4; lia]).
    specialize (IH (loc_end l n) H4 Hl). lia.
Qed.
Lemma rewritten_in tr n new ls : forall from pc, In pc (rewritten tr n new from ls) -> In pc tr \/ exists l, In l ls /\ pc = call_cmd new l.
Proof.
  assert (Hs : forall k (pc : pcmd), In pc (skipn k tr) -> In pc tr) by (intros k pc H; rewrite <- (firstn_skipn k tr); apply in_app_iff; right; exact H).
  induction ls as [|l ls IH]; intros from pc H; cbn [rewritten] in H; [left; eapply Hs; exact H|].
  apply in_app_iff in H. destruct H as [H|[<-|H]].
  - left. eapply Hs. rewrite <- (firstn_skipn (cmd_idx l - from) (skipn from tr)). apply in_app_iff. left. exact H.
  - right. exists l. split; [left; reflexivity|reflexivity].
  - destruct (IH _ _ H) as [Hx|(l' & Hl' & E)]; [left; exact Hx|right; exists l'; split; [right; exact Hl'|exact E]].
Qed.

Lemma fop_filter {A} (R : A -> A -> Prop) p (l : list A) : ForallOrdPairs R l -> ForallOrdPairs R (filter p l).
Proof.
  induction 1 as [|a l H1 H2 IH]; cbn [filter]; [constructor|]. destruct (p a); [|exact IH]. constructor; [|exact IH].
  apply Forall_forall. intros x Hx. apply filter_In in Hx. rewrite Forall_forall in H1. apply H1. tauto.
Qed.
Definition locs_in (i : nat) (s : sequence) : list location := filter (fun l => Nat.eqb (track_idx l) i) (seq_locs s).
Lemma occ_bound trs P i tr l : nth_error trs i = Some tr -> track_idx l = i -> occ_at trs P (pos_of l) -> (cmd_idx l + length P <= length tr)%nat.
Proof.
  intros H1 H2 (tr' & H3 & pre & post & E & Hp). unfold pos_of in *. cbn [fst snd] in *. rewrite H2, H1 in H3. injection H3 as <-.
  rewrite E, !app_length. lia.
Qed.
Lemma chain_locs trs s i tr : candidate trs s -> nth_error trs i = Some tr -> chain tr (length (seq_cmds s)) 0 (locs_in i s).
Proof.
  intros Hc Htr. set (n := length (seq_cmds s)).
  assert (Hall : Forall (fun l => track_idx l = i /\ (cmd_idx l + n <= length tr)%nat /\ 1 <= repeat_count l <= 4) (locs_in i s)).
  { apply Forall_forall. intros l Hl. apply filter_In in Hl. destruct Hl as [Hl Hi]. apply Nat.eqb_eq in Hi.
    pose proof (cd_occ _ _ Hc) as Ho. pose proof (cd_count _ _ Hc) as Hk. rewrite Forall_forall in Ho, Hk. split; [exact Hi|]. split; [|apply Hk, Hl].
    eapply occ_bound; [exact Htr|exact Hi|apply Ho, Hl]. }
  assert (Hord : ForallOrdPairs (loc_before n) (locs_in i s)) by (apply fop_filter; exact (cd_order _ _ Hc)).
  assert (Hgen : forall ls from, Forall (fun l => track_idx l = i /\ (cmd_idx l + n <= length tr)%nat /\ 1 <= repeat_count l <= 4) ls ->
    ForallOrdPairs (loc_before n) ls -> Forall (fun l => (from <= cmd_idx l)%nat) ls -> chain tr n from ls).
  { induction ls as [|l ls IH]; intros from H1 H2 H3; cbn [chain]; [exact I|].
    inversion H1 as [|? ? Ha Hb]; subst. inversion H2 as [|? ? Hc' Hd]; subst. inversion H3 as [|? ? He Hf]; subst.
    split; [exact He|]. split; [lia|]. split; [tauto|]. apply IH; [exact Hb|exact Hd|].
    apply Forall_forall. intros l' Hl'. rewrite Forall_forall in Hc', Hb. specialize (Hc' l' Hl'). destruct (Hb l' Hl') as [Ht _]. unfold loc_before in Hc'. lia. }
  apply Hgen; [exact Hall|exact Hord|]. apply Forall_forall. intros; lia.
Qed.

Lemma extract_tracks_ok trs s new : candidate trs s -> forall rest pre, trs = pre ++ rest ->
  exists nt, extract_tracks rest (length pre) s new = Ok nt /\ length nt = length rest /\
    forall i tr, nth_error rest i = Some tr ->
      nth_error nt i = Some (rewritten tr (length (seq_cmds s)) new 0 (locs_in (length pre + i) s)).
Proof.
  intros Hc. induction rest as [|tr rest IH]; intros pre E; cbn [extract_tracks].
  - exists []. split; [reflexivity|]. split; [reflexivity|]. intros [|i] tr H; discriminate.
  - assert (Htr : nth_error trs (length pre) = Some tr) by (rewrite E, nth_error_app2, Nat.sub_diag by lia; reflexivity).
    pose proof (chain_locs trs s _ tr Hc Htr) as Hch. fold (locs_in (length pre) s). rewrite extract_track_ok by exact Hch. cbn [bind app oelse].
    destruct (IH (pre ++ [tr])) as (nt & En & Hlen & Hnt); [rewrite <- app_assoc; exact E|]. rewrite app_length in En. cbn [length] in En. rewrite Nat.add_1_r in En. rewrite En. cbn [bind].
    eexists. split; [reflexivity|]. split; [cbn [length]; lia|]. intros [|i] tr' H; cbn [nth_error] in *.
    + injection H as <-. rewrite Nat.add_0_r. reflexivity.
    + rewrite (Hnt i tr' H), app_length. cbn [length]. do 2 f_equal. f_equal. lia.
Qed.
Lemma extract_ok trs s n : candidate (firstn n trs) s ->
  exists nt, extract_sequence trs s n = Ok (nt ++ skipn n trs ++ [seq_cmds s]) /\ length nt = length (firstn n trs) /\
    forall i tr, nth_error (firstn n trs) i = Some tr ->
      nth_error nt i = Some (rewritten tr (length (seq_cmds s)) (length trs) 0 (locs_in i s)).
Proof.
  intros Hc. destruct (extract_tracks_ok (firstn n trs) s (length trs) Hc (firstn n trs) [] eq_refl) as (nt & E & Hl & Hn).
  exists nt. unfold extract_sequence. cbn [length] in E. rewrite E. cbn [bind]. auto.
Qed.

(** ** Each extraction shortens the top-level tracks (C25). *)
Lemma sum_le_lt (a b : list track) : length a = length b -> (forall i x y, nth_error a i = Some x -> nth_error b i = Some y -> (length x <= length y)%nat) ->
  (total_length a <= total_length b)%nat.
Proof.
  revert b. induction a as [|x a IH]; intros [|y b] Hl H; try discriminate; [reflexivity|]. unfold total_length in *. cbn [map list_sum fold_right].
  pose proof (H 0%nat x y eq_refl eq_refl). assert (list_sum (map (@length pcmd) a) <= list_sum (map (@length pcmd) b))%nat by (apply IH; [cbn in Hl; lia|intros i; exact (H (S i))]).
  unfold list_sum in *. lia.
Qed.
Lemma sum_lt (a b : list track) : length a = length b -> (forall i x y, nth_error a i = Some x -> nth_error b i = Some y -> (length x <= length y)%nat) ->
  (exists i x y, nth_error a i = Some x /\ nth_error b i = Some y /\ (length x < length y)%nat) -> (total_length a < total_length b)%nat.
Proof.
  revert b. induction a as [|x a IH]; intros [|y b] Hl H (i & u & v & Hu & Hv & Huv); try (destruct i; discriminate); try discriminate.
  pose proof (H 0%nat x y eq_refl eq_refl) as H0.
  assert (Hl' : length a = length b) by (cbn in Hl; lia). assert (H' : forall i x y, nth_error a i = Some x -> nth_error b i = Some y -> (length x <= length y)%nat) by (intros j; exact (H (S j))).
  pose proof (sum_le_lt a b Hl' H') as Hle. unfold total_length in *. cbn [map list_sum fold_right]. destruct i as [|i]; cbn [nth_error] in *.
  - injection Hu as ->. injection Hv as ->. unfold list_sum in *. lia.
  - assert (list_sum (map (@length pcmd) a) < list_sum (map (@length pcmd) b))%nat by (apply IH; eauto 6). unfold list_sum in *. lia.
Qed.
Lemma chosen_loc trs s : chosen trs s -> exists l tr, In l (seq_locs s) /\ nth_error trs (track_idx l) = Some tr.
Proof.
  intros (Hc & Hl & Ht). destruct (seq_locs s) as [|l ls] eqn:E; [unfold total in Ht; cbn in Ht; lia|].
  pose proof (cd_occ _ _ Hc) as Ho. rewrite E in Ho. inversion Ho as [|? ? (tr & Htr & _) _]; subst. exists l, tr. split; [left; reflexivity|exact Htr].
Qed.
Record step (n : nat) (trs : list track) (s : sequence) (trs' : list track) : Prop := mk_step {
  st_room : (n <= length trs)%nat;
  st_chosen : chosen (firstn n trs) s;
  st_top_len : length (firstn n trs') = n;
  st_top : forall i tr, (i < n)%nat -> nth_error trs i = Some tr ->
     nth_error trs' i = Some (rewritten tr (length (seq_cmds s)) (length trs) 0 (locs_in i s));
  st_rest : skipn n trs' = skipn n trs ++ [seq_cmds s];
  st_len : length trs' = S (length trs)
}.
Lemma nth_error_firstn {A} n (l : list A) i : (i < n)%nat -> nth_error (firstn n l) i = nth_error l i.
Proof. revert l i. induction n as [|n IH]; intros l i H; [lia|]. destruct l as [|x l]; [destruct i; reflexivity|]. destruct i; cbn [firstn nth_error]; [reflexivity|]. apply IH. lia. Qed.
Lemma extract_step trs s n : (n <= length trs)%nat -> chosen (firstn n trs) s ->
  exists trs', extract_sequence trs s n = Ok trs' /\ step n trs s trs'.
Proof.
  intros Hn Hc. destruct (extract_ok trs s n (proj1 Hc)) as (nt & E & Hl & Hnt). rewrite firstn_length_le in Hl by exact Hn.
  eexists. split; [exact E|].
  assert (Hf : firstn n (nt ++ skipn n trs ++ [seq_cmds s]) = nt) by (rewrite firstn_app, Hl, Nat.sub_diag, firstn_O, app_nil_r; apply firstn_all2; lia).
  constructor; try assumption.
  - rewrite Hf. exact Hl.
  - intros i tr Hi Htr. rewrite nth_error_app1 by lia. apply Hnt. rewrite nth_error_firstn by exact Hi. exact Htr.
  - rewrite skipn_app, Hl, Nat.sub_diag, skipn_all2 by lia. reflexivity.
  - rewrite !app_length, skipn_length. cbn [length]. lia.
Qed.
Lemma step_shorter n trs s trs' : step n trs s trs' -> (total_length (firstn n trs') < total_length (firstn n trs))%nat.
Proof.
  intros [Hn Hc Hl Ht Hr Hlen].
  assert (Hlt : forall i x y, nth_error (firstn n trs') i = Some x -> nth_error (firstn n trs) i = Some y -> (length x + 3 * length (locs_in i s) <= length y)%nat).
  { intros i x y Hx Hy. assert (Hi : (i < n)%nat) by (apply nth_error_lt in Hx; lia). pose proof (chain_locs _ _ _ _ (proj1 Hc) Hy) as Hch.
    rewrite nth_error_firstn in Hx, Hy by exact Hi. rewrite (Ht i y Hi Hy) in Hx. injection Hx as <-.
    destruct Hc as (Hc & Hc4 & _). pose proof (rewritten_shorter y (length (seq_cmds s)) (length trs) ltac:(lia) (locs_in i s) 0 Hch ltac:(left; lia)). lia. }
  apply sum_lt.
  - rewrite Hl, firstn_length_le by exact Hn. reflexivity.
  - intros i x y Hx Hy. specialize (Hlt i x y Hx Hy). lia.
  - destruct (chosen_loc _ _ Hc) as (l & tr & Hin & Htr). assert (Hi : (track_idx l < n)%nat) by (apply nth_error_lt in Htr; rewrite firstn_length_le in Htr by exact Hn; exact Htr).
    destruct (nth_error (firstn n trs') (track_idx l)) as [x|] eqn:Ex; [|apply nth_error_None in Ex; lia].
    exists (track_idx l), x, tr. split; [exact Ex|]. split; [exact Htr|]. specialize (Hlt _ _ _ Ex Htr).
    assert (Hin' : In l (locs_in (track_idx l) s)) by (apply filter_In; split; [exact Hin|apply Nat.eqb_refl]).
    destruct (locs_in (track_idx l) s) as [|l' ls']; [destruct Hin'|]. cbn [length] in Hlt. lia.
Qed.
Lemma optimize_total n : forall fuel trs, (n <= length trs)%nat -> (total_length (firstn n trs) < fuel)%nat ->
  exists trs', optimize_fuel fuel Release trs n = Ok trs'.
Proof.
  induction fuel as [|fuel IH]; intros trs Hn Hf; [lia|]. cbn [optimize_fuel].
  destruct (best_total (firstn n trs)) as (t & o & Et & Eo). rewrite Et. cbn [bind]. rewrite Eo. cbn [bind].
  destruct o as [s|]; [|eauto]. pose proof (best_spec _ _ _ Et _ Eo s eq_refl) as Hc.
  destruct (extract_step trs s n Hn Hc) as (trs' & -> & Hs). cbn [bind]. apply IH; [rewrite (st_len _ _ _ _ Hs); lia|].
  pose proof (step_shorter _ _ _ _ Hs). lia.
Qed.
Lemma optimize_terminates trs n : (n <= length trs)%nat -> exists trs', optimize_call_loops Release trs n = Ok trs'.
Proof. intros H. apply optimize_total; [exact H|lia]. Qed.

Lemma optimize_inv b n (Inv : list track -> Prop) : (forall trs s trs', Inv trs -> step n trs s trs' -> Inv trs') ->
  forall fuel trs r, (n <= length trs)%nat -> Inv trs -> optimize_fuel fuel b trs n = Ok r -> Inv r /\ (n <= length r)%nat.
Proof.
  intros HI. induction fuel as [|fuel IH]; intros trs r Hn Ht E; cbn [optimize_fuel] in E; [discriminate|].
  inv_bind E. inv_bind E. destruct a0 as [s|]; [|injection E as <-; auto].
  pose proof (best_spec _ _ _ Ha _ Ha0 s eq_refl) as Hc. destruct (extract_step trs s n Hn Hc) as (trs' & E' & Hs). rewrite E' in E. cbn [bind] in E.
  eapply IH; [|eapply HI; eassumption|exact E]. rewrite (st_len _ _ _ _ Hs). lia.
Qed.
(** The loop ends only when there is nothing left worth extracting. *)
Lemma optimize_none b n : forall fuel trs r, optimize_fuel fuel b trs n = Ok r ->
  exists t, build_tree b empty_tree (firstn n r) 0 = Ok t /\ best_sequence b t = Ok None.
Proof.
  induction fuel as [|fuel IH]; intros trs r E; cbn [optimize_fuel] in E; [discriminate|]. inv_bind E. inv_bind E.
  destruct a0 as [s|]; [|injection E as <-; eauto]. inv_bind E. eapply IH; exact E.
Qed.

(** ** Shape of the result (C26). *)
Definition body_ok (P : track) : Prop :=
  (3 < length P)%nat /\ Forall may_loop P /\ match P with pc :: _ => not_tie pc | [] => False end.
Definition call_in (lo hi : nat) (pc : pcmd) : Prop :=
  forall t n, cmd pc = CallLoop t n -> (lo <= t < hi)%nat /\ 1 <= n <= 4.
Definition shape (n : nat) (trs : list track) : Prop :=
  Forall (fun tr : track => Forall (call_in n (length trs)) tr) (firstn n trs) /\ Forall body_ok (skipn n trs).
Lemma eligible_may c : call_loop_eligible c = true -> may_loop c.
Proof. unfold call_loop_eligible, may_loop. destruct (cmd c); auto; discriminate. Qed.
Lemma chosen_body trs s : chosen trs s -> body_ok (seq_cmds s).
Proof.
  intros (Hc & Hl & Ht). split; [exact Hl|]. split; [eapply Forall_impl; [|exact (cd_eligible _ _ Hc)]; exact eligible_may|].
  destruct (seq_cmds s) as [|pc P] eqn:E; [cbn in Hl; lia|]. intros Htie. pose proof (cd_tie _ _ Hc) as Hx. rewrite E in Hx.
  destruct Hx as [Hx1 Hx2]; [exists pc, P; split; [reflexivity|unfold can_be_first_in_call_loop; rewrite Htie; reflexivity]|].
  destruct (seq_locs s) as [|l [|l' ls]]; cbn [length] in Hx1; try lia; [unfold total, zsum in Ht; cbn [map fold_right] in Ht; lia|].
  inversion Hx2; subst. unfold total, zsum in Ht. cbn [map fold_right] in Ht. lia.
Qed.
Lemma shape_step n trs s trs' : shape n trs -> step n trs s trs' -> shape n trs'.
Proof.
  intros [H1 H2] Hs. pose proof Hs as [Hn Hc Hl Ht Hr Hlen]. split.
  - apply Forall_forall. intros x Hx. apply In_nth_error in Hx. destruct Hx as [i Hx].
    assert (Hi : (i < n)%nat) by (rewrite <- Hl; eapply nth_error_lt; exact Hx). rewrite nth_error_firstn in Hx by exact Hi.
    destruct (nth_error trs i) as [tr|] eqn:Etr; [|apply nth_error_None in Etr; lia]. rewrite (Ht i tr Hi Etr) in Hx. injection Hx as <-.
    apply Forall_forall. intros pc Hpc. destruct (rewritten_in _ _ _ _ _ _ Hpc) as [Hin|(l & Hin & ->)].
    + rewrite Forall_forall in H1. assert (Htr : In tr (firstn n trs)) by (eapply nth_error_In; rewrite nth_error_firstn by exact Hi; exact Etr).
      specialize (H1 tr Htr). rewrite Forall_forall in H1. intros t k E. specialize (H1 pc Hin t k E). lia.
    + intros t k E. cbn in E. injection E as <- <-. split; [lia|]. apply filter_In in Hin. destruct Hin as [Hin _].
      pose proof (cd_count _ _ (proj1 Hc)) as Hk. rewrite Forall_forall in Hk. apply Hk, Hin.
  - rewrite Hr. apply Forall_app. split; [exact H2|]. constructor; [eapply chosen_body; exact Hc|constructor].
Qed.
Lemma shape_start trs : Forall loop_free trs -> shape (length trs) trs.
Proof.
  intros H. split; [|rewrite skipn_all; constructor]. rewrite firstn_all. eapply Forall_impl; [|exact H]. intros tr Htr.
  eapply Forall_impl; [|exact Htr]. intros pc Hpc t n E. exfalso. exact (Hpc t n E).
Qed.
Lemma optimize_shape b trs r : Forall loop_free trs -> optimize_call_loops b trs (length trs) = Ok r -> shape (length trs) r.
Proof.
  intros H E. destruct (optimize_inv b (length trs) (shape (length trs)) (fun a s c => shape_step (length trs) a s c) _ _ _ (le_n _) (shape_start trs H) E) as [Hs _]. exact Hs.
Qed.
