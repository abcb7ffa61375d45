(** TreeProofs2.v: the finished tree, the candidate sequences and the chosen one (C25-C27). *)
From Coq Require Import Sorted Arith.
From Verif Require Import Base ProofLib Command Track SeqTree Song SpecLoop TreeProofs.
Open Scope list_scope.

Lemma add_track_wf b trs ti tr t : nth_error trs ti = Some tr -> wf trs (ti, 0%nat) [] t ->
  exists t', add_track b t tr ti = Ok t' /\ wf trs (ti, length tr) [] t'.
Proof.
  intros Htr Ht. unfold add_track.
  assert (H : forall k i t, (i + k = length tr)%nat -> wf trs (ti, i) [] t ->
    exists t', ofold (fun t i => add_commands (S (length tr)) b t (skipn i tr) ti i 0) (seq i k) t = Ok t' /\ wf trs (ti, length tr) [] t').
  { induction k as [|k IH]; intros i t0 Hik Hw; cbn [seq ofold].
    - exists t0. split; [reflexivity|]. replace (length tr) with i by lia. exact Hw.
    - inversion Hw as [P es g Hh Hlt Hr Hti Hel Hcalm Hends Hes HP Ht0]. subst. specialize (Hr eq_refl). subst g.
      destruct (add_commands_wf (S (length tr)) b trs [] es [] (skipn i tr) ti i tr) as (t' & E & Hw'); try assumption.
      + rewrite skipn_length. lia.
      + lia.
      + reflexivity.
      + intros (c & P' & E & _). discriminate.
      + constructor.
      + unfold count. cbn. lia.
      + reflexivity.
      + apply calm_few. intros p. unfold count. cbn [app count_occ]. destruct (pos_dec _ _); lia.
      + congruence.
      + cbn [length] in E. cbn [length]. rewrite E. cbn [bind]. apply IH; [lia|exact Hw']. }
  apply (H (length tr) 0%nat t); [lia|exact Ht].
Qed.
Lemma build_tree_wf b trs : forall rest pre t, trs = pre ++ rest -> wf trs (length pre, 0%nat) [] t ->
  exists t', build_tree b t rest (length pre) = Ok t' /\ wf trs (length trs, 0%nat) [] t'.
Proof.
  induction rest as [|tr rest IH]; intros pre t E Hw; cbn [build_tree].
  - exists t. split; [reflexivity|]. rewrite app_nil_r in E. subst. exact Hw.
  - destruct (add_track_wf b trs (length pre) tr t) as (t1 & E1 & Hw1); [subst; rewrite nth_error_app2, Nat.sub_diag by lia; reflexivity|exact Hw|].
    rewrite E1. cbn [bind]. destruct (IH (pre ++ [tr]) t1) as (t2 & E2 & Hw2).
    + rewrite <- app_assoc. exact E.
    + rewrite app_length. cbn [length]. eapply wf_mono; [|exact Hw1]. unfold lep. cbn [fst snd]. lia.
    + rewrite app_length in E2. cbn [length] in E2. rewrite Nat.add_1_r in E2. exists t2. auto.
Qed.
Lemma build_tree_all b trs : exists t, build_tree b empty_tree trs 0 = Ok t /\ wf trs (length trs, 0%nat) [] t.
Proof.
  apply (build_tree_wf b trs trs [] empty_tree eq_refl). unfold empty_tree. change (@nil location) with (locs_after (length (@nil pcmd)) []).
  constructor; [|constructor|reflexivity| |constructor| |congruence|constructor].
  - constructor; [constructor|intros p; unfold count; cbn; lia|constructor].
  - intros (c & P' & E & _). discriminate.
  - apply calm_few. intros p. unfold count. cbn. lia.
Qed.

(** ** Consolidation. *)
Definition loc_before (n : nat) (a b : location) : Prop :=
  (track_idx a < track_idx b \/ track_idx a = track_idx b /\ loc_end a n < cmd_idx b)%nat.
Definition cons_inv (n : nat) (done acc : list location) : Prop :=
  ForallOrdPairs (fun a b => loc_before n b a) acc /\
  Forall (fun a => 1 <= repeat_count a <= 4) acc /\
  incl (map pos_of acc) (map pos_of done) /\
  match acc with
  | [] => done = []
  | a :: _ => repeat_count a <= 3 \/ exists m, In m done /\ track_idx m = track_idx a /\ (cmd_idx m + n)%nat = loc_end a n
  end.
Lemma fop_rev {A} (R : A -> A -> Prop) l : ForallOrdPairs (fun a b => R b a) l -> ForallOrdPairs R (rev l).
Proof.
  induction 1 as [|x l H1 H2 IH]; cbn [rev]; [constructor|]. apply fop_snoc; [exact IH|]. apply Forall_rev. exact H1.
Qed.
Lemma consolidate_inv b n ls0 : StronglySorted lep (map pos_of ls0) -> ForallOrdPairs (fun a b => shift (pos_of a) n <> pos_of b) ls0 ->
  Forall (fun l => 1 <= repeat_count l <= 3) ls0 ->
  forall rest done acc, ls0 = done ++ rest -> cons_inv n done acc ->
  exists out, consolidate_from b acc rest n = Ok out /\ ForallOrdPairs (loc_before n) out /\
    Forall (fun a => 1 <= repeat_count a <= 4) out /\ incl (map pos_of out) (map pos_of ls0).
Proof.
  intros Hs Hsep Hrep. induction rest as [|l rest IH]; intros done acc E (I1 & I2 & I3 & I4); cbn [consolidate_from].
  - exists (rev acc). split; [reflexivity|]. split; [apply fop_rev; exact I1|]. split; [apply Forall_rev; exact I2|].
    rewrite app_nil_r in E. subst done. intros p Hp. apply I3. rewrite map_rev in Hp. apply in_rev. exact Hp.
  - assert (E' : ls0 = (done ++ [l]) ++ rest) by (rewrite <- app_assoc; exact E).
    assert (Hdl : Forall (fun q => lep q (pos_of l)) (map pos_of done)).
    { rewrite E, map_app in Hs. cbn [map] in Hs. clear - Hs. induction (map pos_of done) as [|q d IHd]; [constructor|]. cbn [app] in Hs. inversion Hs as [|? ? H1 H2]; subst.
      constructor; [|apply IHd; exact H1]. apply Forall_app in H2. destruct H2 as [_ H2]. inversion H2; assumption. }
    assert (Hlr : 1 <= repeat_count l <= 3) by (rewrite Forall_forall in Hrep; apply Hrep; rewrite E; apply in_app_iff; right; left; reflexivity).
    assert (Hinc : incl (map pos_of done) (map pos_of (done ++ [l]))) by (rewrite map_app; apply incl_appl, incl_refl).
    assert (Hpush : forall acc0, acc0 = acc -> (match acc with a :: _ => ~ (track_idx a = track_idx l /\ (cmd_idx l <= loc_end a n)%nat) | [] => True end) -> cons_inv n (done ++ [l]) (l :: acc)).
    { intros acc0 _ Hnc. split; [|split; [|split]].
      - constructor; [|exact I1]. destruct acc as [|a acc']; [constructor|].
        assert (Ha : lep (pos_of a) (pos_of l)). { rewrite Forall_forall in Hdl. apply Hdl, I3. left. reflexivity. }
        assert (Hal : loc_before n a l). { unfold loc_before. unfold lep, pos_of in Ha. cbn [fst snd] in Ha. lia. }
        constructor; [exact Hal|]. inversion I1 as [|? ? J1 J2]; subst. eapply Forall_impl; [|exact J1]. cbn beta. intros c Hc.
        unfold loc_before in Hc, Hal |- *. assert (cmd_idx a <= loc_end a n)%nat by (unfold loc_end; lia). lia.
      - constructor; [lia|exact I2].
      - cbn [map]. intros p [<-|Hp]; [rewrite map_app; apply in_app_iff; right; left; reflexivity|apply Hinc, I3, Hp].
      - left. lia. }
    destruct acc as [|a acc'].
    + apply (IH (done ++ [l]) [l] E'). apply (Hpush []); [reflexivity|exact I].
    + destruct (Nat.eqb_spec (track_idx a) (track_idx l)) as [Ht|Ht]; cbn [andb].
      * destruct (Nat.ltb_spec (cmd_idx l) (loc_end a n)) as [Hc|Hc].
        -- apply (IH (done ++ [l]) (a :: acc') E'). split; [exact I1|]. split; [exact I2|]. split; [intros p Hp; apply Hinc, I3, Hp|].
           destruct I4 as [I4|(m & Hm & Hm')]; [left; exact I4|right; exists m; split; [apply in_app_iff; left; exact Hm|exact Hm']].
        -- destruct (Nat.eqb_spec (loc_end a n) (cmd_idx l)) as [He|He].
           ++ assert (Hr3 : repeat_count a <= 3).
              { destruct I4 as [I4|(m & Hm & Hmt & Hmc)]; [exact I4|exfalso]. rewrite E in Hsep. apply fop_app_inv in Hsep. destruct Hsep as (_ & _ & Hx).
                rewrite Forall_forall in Hx. specialize (Hx m Hm). inversion Hx as [|? ? Hx1 _]; subst. apply Hx1. unfold shift, pos_of. cbn [fst snd]. congruence. }
              inversion I2 as [|? ? Ha Hacc]; subst. rewrite arith_exact by (change (2 ^ 8) with 256; lia). cbn [bind].
              apply (IH (done ++ [l]) _ E'). split; [|split; [|split]].
              ** inversion I1 as [|? ? J1 J2]; subst. constructor; [|exact J2]. exact J1.
              ** constructor; [cbn [repeat_count]; lia|exact Hacc].
              ** intros p Hp. apply Hinc, I3, Hp.
              ** right. exists l. split; [apply in_app_iff; right; left; reflexivity|]. cbn [track_idx]. split; [congruence|].
                 unfold loc_end in *. cbn [cmd_idx repeat_count]. replace (Z.to_nat (repeat_count a + 1)) with (S (Z.to_nat (repeat_count a))) by lia. nia.
           ++ apply (IH (done ++ [l]) (l :: a :: acc') E'). apply (Hpush (a :: acc')); [reflexivity|]. lia.
      * apply (IH (done ++ [l]) (l :: a :: acc') E'). apply (Hpush (a :: acc')); [reflexivity|]. lia.
Qed.
Lemma consolidate_ok b trs P g : history_ok trs P g ->
  exists out, consolidate_locations b (locs_after (length P) g) (length P) = Ok out /\ ForallOrdPairs (loc_before (length P)) out /\
    Forall (fun a => 1 <= repeat_count a <= 4) out /\ Forall (fun l => occ_at trs P (pos_of l)) out.
Proof.
  intros [H1 H2 H3]. pose proof (locs_after_ok (length P) g H1) as Hk.
  destruct (consolidate_inv b (length P) (locs_after (length P) g)) with (rest := locs_after (length P) g) (done := @nil location) (acc := @nil location) as (out & E & Ha & Hb & Hc).
  - exact (lk_sorted _ _ _ Hk).
  - exact (lk_sep _ _ _ Hk).
  - eapply rep_bound; eassumption.
  - reflexivity.
  - repeat split; try constructor. intros p [].
  - exists out. split; [exact E|]. split; [exact Ha|]. split; [exact Hb|]. apply Forall_forall. intros l Hl.
    assert (Hp : In (pos_of l) (map pos_of (locs_after (length P) g))) by (apply Hc, in_map, Hl). apply in_map_iff in Hp. destruct Hp as (l' & E' & Hl').
    apply (lk_in _ _ _ _ Hk) in Hl'. rewrite Forall_forall in H3. rewrite <- E'. apply H3, Hl'.
Qed.
(** With one entry or none there is nothing to merge. *)
Lemma locs_after_short n g : (length g <= 1)%nat -> locs_after n g = match g with [] => [] | p :: _ => [mk_loc (fst p) (snd p) 1] end.
Proof. destruct g as [|p [|q g]]; cbn [length]; intros; try lia; reflexivity. Qed.
(** Without occurrences at distance [n], every count stays one. *)
Lemma consolidate_ones b n : forall rest acc, Forall (fun l => repeat_count l = 1) rest -> Forall (fun l => repeat_count l = 1) acc ->
  (forall a l, In a acc \/ In a rest -> In l rest -> shift (pos_of a) n <> pos_of l) ->
  forall out, consolidate_from b acc rest n = Ok out -> Forall (fun l => repeat_count l = 1) out.
Proof.
  induction rest as [|l rest IH]; intros acc Hr Ha Hno out E; cbn [consolidate_from] in E.
  - injection E as <-. apply Forall_rev. exact Ha.
  - inversion Hr as [|? ? Hl Hr']; subst.
    assert (Hsub : forall acc', (forall a, In a acc' -> In a acc \/ a = l) -> forall a l0, In a acc' \/ In a rest -> In l0 rest -> shift (pos_of a) n <> pos_of l0).
    { intros acc' Hacc a l0 [Hi|Hi] Hl0; apply Hno; try (right; assumption); [|right; right; exact Hi].
      destruct (Hacc a Hi) as [Hx| ->]; [left; exact Hx|right; left; reflexivity]. }
    destruct acc as [|a acc'].
    + eapply IH; [exact Hr'| |apply Hsub|exact E]; [repeat constructor; exact Hl|]. intros a [<-|[]]. right. reflexivity.
    + destruct (Nat.eqb_spec (track_idx a) (track_idx l)) as [Ht|Ht]; cbn [andb] in E.
      * destruct (Nat.ltb_spec (cmd_idx l) (loc_end a n)) as [Hc|Hc].
        -- eapply IH; [exact Hr'|exact Ha|apply Hsub|exact E]. tauto.
        -- destruct (Nat.eqb_spec (loc_end a n) (cmd_idx l)) as [He|He].
           ++ exfalso. inversion Ha as [|? ? Ha1 _]; subst. apply (Hno a l); [left; left; reflexivity|left; reflexivity|].
              unfold shift, pos_of. cbn [fst snd]. rewrite <- He, Ht. unfold loc_end. rewrite Ha1. f_equal. change (Z.to_nat 1) with 1%nat. lia.
           ++ eapply IH; [exact Hr'| |apply Hsub|exact E]; [constructor; assumption|]. intros x [<-|Hx]; auto.
      * eapply IH; [exact Hr'| |apply Hsub|exact E]; [constructor; assumption|]. intros x [<-|Hx]; auto.
Qed.

(** A count other than one means that the body occurs again directly behind. *)
Lemma consolidate_two b n (R : pos -> Prop) : forall rest acc,
  Forall (fun l => R (pos_of l) /\ (repeat_count l <> 1 -> R (shift (pos_of l) n))) rest ->
  Forall (fun l => repeat_count l <> 1 -> R (shift (pos_of l) n)) acc ->
  forall out, consolidate_from b acc rest n = Ok out ->
  Forall (fun l => repeat_count l <> 1 -> R (shift (pos_of l) n)) out.
Proof.
  induction rest as [|l rest IH]; intros acc Hr Ha out E; cbn [consolidate_from] in E.
  - injection E as <-. apply Forall_rev. exact Ha.
  - inversion Hr as [|? ? [Hl1 Hl2] Hr']; subst. destruct acc as [|a acc'].
    + eapply IH; [exact Hr'| |exact E]. constructor; [exact Hl2|constructor].
    + destruct (Nat.eqb_spec (track_idx a) (track_idx l)) as [Ht|Ht]; cbn [andb] in E.
      * destruct (Nat.ltb_spec (cmd_idx l) (loc_end a n)) as [Hc|Hc].
        -- eapply IH; [exact Hr'|exact Ha|exact E].
        -- destruct (Nat.eqb_spec (loc_end a n) (cmd_idx l)) as [He|He].
           ++ inv_bind E. eapply IH; [exact Hr'| |exact E]. inversion Ha as [|? ? Ha1 Ha2]; subst. constructor; [|exact Ha2].
              intros _. change (R (shift (pos_of a) n)). destruct (Z.eq_dec (repeat_count a) 1) as [H1|H1]; [|exact (Ha1 H1)].
              replace (shift (pos_of a) n) with (pos_of l); [exact Hl1|]. unfold shift, pos_of. cbn [fst snd]. rewrite <- He, Ht. unfold loc_end. rewrite H1. f_equal. change (Z.to_nat 1) with 1%nat. lia.
           ++ eapply IH; [exact Hr'| |exact E]. constructor; [exact Hl2|exact Ha].
      * eapply IH; [exact Hr'| |exact E]. constructor; [exact Hl2|exact Ha].
Qed.

(** Genuine runs stay genuine. *)
Lemma copies_snoc k P : copies (S k) P = copies k P ++ P.
Proof. induction k as [|k IH]; [cbn [copies app]; apply app_nil_r|]. cbn [copies] in *. rewrite IH at 1. rewrite app_assoc. reflexivity. Qed.
Lemma copies_length k P : length (copies k P) = (k * length P)%nat.
Proof. induction k; cbn [copies Nat.mul length]; [reflexivity|]. rewrite app_length. lia. Qed.
Lemma occurs_app P Q tr c : occurs P tr c -> occurs Q tr (c + length P) -> occurs (P ++ Q) tr c.
Proof.
  rewrite !occurs_nth, app_length. intros [H1 H2] [H3 H4]. split; [lia|]. intros k Hk. destruct (Nat.lt_ge_cases k (length P)) as [Hlt|Hge].
  - rewrite nth_error_app1 by exact Hlt. apply H2, Hlt.
  - rewrite nth_error_app2 by exact Hge. rewrite <- H4 by lia. f_equal. lia.
Qed.
Lemma occ_at_app trs P Q p : occ_at trs P p -> occ_at trs Q (shift p (length P)) -> occ_at trs (P ++ Q) p.
Proof.
  intros (tr & Htr & H) (tr2 & Htr2 & H2). unfold shift in *. cbn [fst snd] in *. rewrite Htr in Htr2. injection Htr2 as <-. exists tr. split; [exact Htr|]. apply occurs_app; assumption.
Qed.
Lemma consolidate_runs b trs P : forall rest acc,
  Forall (fun l => 0 <= repeat_count l <= 255 /\ occ_at trs P (pos_of l) /\ genuine trs P l) rest -> Forall (fun l => 0 <= repeat_count l <= 255 /\ genuine trs P l) acc ->
  forall out, consolidate_from b acc rest (length P) = Ok out -> Forall (genuine trs P) out.
Proof.
  induction rest as [|l rest IH]; intros acc Hr Ha out E; cbn [consolidate_from] in E.
  - injection E as <-. apply Forall_rev. eapply Forall_impl; [|exact Ha]. cbn beta. tauto.
  - inversion Hr as [|? ? (Hl1 & Hl2 & Hl3) Hr']; subst. destruct acc as [|a acc'].
    + eapply IH; [exact Hr'| |exact E]. constructor; [tauto|constructor].
    + destruct (Nat.eqb_spec (track_idx a) (track_idx l)) as [Ht|Ht]; cbn [andb] in E; [|eapply IH; [exact Hr'| |exact E]; constructor; [tauto|exact Ha]].
      destruct (Nat.ltb_spec (cmd_idx l) (loc_end a (length P))) as [Hc|Hc]; [eapply IH; [exact Hr'|exact Ha|exact E]|].
      destruct (Nat.eqb_spec (loc_end a (length P)) (cmd_idx l)) as [He|He]; [|eapply IH; [exact Hr'| |exact E]; constructor; [tauto|exact Ha]].
      inversion Ha as [|? ? [Ha1 Ha2] Ha3]; subst. unfold arith in E. change (2 ^ 8) with 256 in E. destruct (_ && _)%bool eqn:Eb in E; cbn [bind] in E.
      * eapply IH; [exact Hr'| |exact E]. constructor; [|exact Ha3]. cbn [repeat_count]. split; [lia|].
        change (occ_at trs (copies (Z.to_nat (repeat_count a + 1)) P) (pos_of a)). replace (Z.to_nat (repeat_count a + 1)) with (S (Z.to_nat (repeat_count a))) by lia.
        rewrite copies_snoc. apply occ_at_app; [exact Ha2|]. replace (shift (pos_of a) (length (copies (Z.to_nat (repeat_count a)) P))) with (pos_of l); [exact Hl2|].
        unfold shift, pos_of. cbn [fst snd]. rewrite copies_length, Ht, <- He. unfold loc_end. f_equal. lia.
      * destruct b; cbn [bind] in E; [discriminate|]. eapply IH; [exact Hr'| |exact E]. constructor; [|exact Ha3]. cbn [repeat_count].
        replace ((repeat_count a + 1) mod 256) with 0 by lia. split; [lia|]. destruct Ha2 as (tr & Htr & pre & post & Et & Hpre). exists tr. split; [exact Htr|].
        change (copies (Z.to_nat 0) P) with (@nil pcmd). cbn [cmd_idx]. exists pre, (copies (Z.to_nat (repeat_count a)) P ++ post). split; [exact Et|exact Hpre].
Qed.

(** ** Candidates. *)
Record candidate (trs : list track) (s : sequence) : Prop := mk_candidate {
  cd_nonempty : seq_cmds s <> [];
  cd_eligible : Forall (fun c => call_loop_eligible c = true) (seq_cmds s);
  cd_tie : starts_tie (seq_cmds s) -> (length (seq_locs s) <= 1)%nat /\ Forall (fun l => repeat_count l = 1) (seq_locs s);
  cd_order : ForallOrdPairs (loc_before (length (seq_cmds s))) (seq_locs s);
  cd_count : Forall (fun l => 1 <= repeat_count l <= 4) (seq_locs s);
  cd_occ : Forall (fun l => occ_at trs (seq_cmds s) (pos_of l)) (seq_locs s);
  cd_ones : (forall p q, occ_at trs (seq_cmds s) p -> occ_at trs (seq_cmds s) q -> shift p (length (seq_cmds s)) <> q) ->
    Forall (fun l => repeat_count l = 1) (seq_locs s);
  cd_two : Forall (fun l => repeat_count l <> 1 -> occ_at trs (seq_cmds s) (shift (pos_of l) (length (seq_cmds s)))) (seq_locs s);
  cd_fresh : fresh_repeats trs -> (4 <= length (seq_cmds s))%nat -> Forall (genuine trs (seq_cmds s)) (seq_locs s)
}.
Lemma node_candidate b trs T P es g : P <> [] -> wf trs T P (Node es (locs_after (length P) g)) -> history_ok trs P g -> calm trs P g ->
  (starts_tie P -> (length g <= 1)%nat) ->
  exists ls, consolidate_locations b (locs_after (length P) g) (length P) = Ok ls /\ candidate trs (mk_seq P ls).
Proof.
  intros HP Hw Hh Hcalm Htie. destruct (consolidate_ok b trs P g Hh) as (out & E & H1 & H2 & H3). exists out. split; [exact E|].
  constructor; cbn [seq_cmds seq_locs]; try assumption.
  - eapply wf_eligible; exact Hw.
  - intros Ht. specialize (Htie Ht). rewrite locs_after_short in E by exact Htie. destruct g as [|p g]; cbn in E; injection E as <-; split; cbn; repeat constructor; lia.
  - intros Hno. pose proof (locs_after_ok (length P) g (hk_sorted _ _ _ Hh)) as Hk.
    assert (Hin : forall l, In l (locs_after (length P) g) -> occ_at trs P (pos_of l)).
    { intros l Hl. apply (lk_in _ _ _ _ Hk) in Hl. pose proof (hk_occ _ _ _ Hh) as Ho. rewrite Forall_forall in Ho. apply Ho, Hl. }
    eapply consolidate_ones with (acc := @nil location); [|constructor| |exact E].
    + apply Forall_forall. intros l Hl. pose proof (lk_rep _ _ _ Hk) as Hr. rewrite Forall_forall in Hr. specialize (Hr l Hl).
      rewrite count_notin in Hr; [lia|]. intros Hc. apply (Hno (pos_of l) (shift (pos_of l) (length P))); [apply Hin, Hl| |reflexivity].
      pose proof (hk_occ _ _ _ Hh) as Ho. rewrite Forall_forall in Ho. apply Ho, Hc.
    + intros a l [[]|Ha] Hl. apply Hno; apply Hin; assumption.
  - pose proof (locs_after_ok (length P) g (hk_sorted _ _ _ Hh)) as Hk. pose proof (hk_occ _ _ _ Hh) as Ho. rewrite Forall_forall in Ho.
    eapply consolidate_two with (acc := @nil location) (R := occ_at trs P); [|constructor|exact E].
    apply Forall_forall. intros l Hl. split; [apply Ho, (lk_in _ _ _ _ Hk), Hl|]. intros Hr. apply Ho, in_count.
    pose proof (lk_rep _ _ _ Hk) as Hr'. rewrite Forall_forall in Hr'. specialize (Hr' l Hl). lia.
  - intros Hfr H4. pose proof (locs_after_ok (length P) g (hk_sorted _ _ _ Hh)) as Hk. pose proof (hk_occ _ _ _ Hh) as Ho. rewrite Forall_forall in Ho.
    eapply consolidate_runs with (acc := @nil location); [|constructor|exact E]. apply Forall_forall. intros l Hl.
    pose proof (lk_in _ _ _ _ Hk Hl) as Hin. pose proof (lk_rep _ _ _ Hk) as Hr. rewrite Forall_forall in Hr. specialize (Hr l Hl).
    assert (Hc : (count (shift (pos_of l) (length P)) g <= 1)%nat).
    { destruct (Nat.le_gt_cases (count (shift (pos_of l) (length P)) g) 1) as [|Hgt]; [assumption|]. exfalso. exact (Hcalm Hfr _ Hgt (pos_of l) (length P) Hin ltac:(lia) eq_refl). }
    split; [lia|]. split; [apply Ho, Hin|]. change (occ_at trs (copies (Z.to_nat (repeat_count l)) P) (pos_of l)).
    assert (Hk12 : repeat_count l = 1 \/ repeat_count l = 2) by lia. destruct Hk12 as [E1|E2].
    + rewrite E1. change (copies (Z.to_nat 1) P) with (P ++ []). rewrite app_nil_r. apply Ho, Hin.
    + rewrite E2. change (copies (Z.to_nat 2) P) with (P ++ P ++ []). rewrite app_nil_r. apply occ_at_app; [apply Ho, Hin|]. apply Ho, in_count. lia.
Qed.

Lemma sequences_both b trs T :
  (forall P t, wf trs T P t -> exists ss, sequences b P t = Ok ss /\ Forall (candidate trs) ss) /\
  (forall P es, wf_edges trs T P es -> forall ls, exists ss, sequences b P (Node es ls) = Ok ss /\ Forall (candidate trs) ss).
Proof.
  apply (wf_both trs T (fun P t _ => exists ss, sequences b P t = Ok ss /\ Forall (candidate trs) ss)
    (fun P es _ => forall ls, exists ss, sequences b P (Node es ls) = Ok ss /\ Forall (candidate trs) ss)).
  - intros P es g _ _ _ _ _ _ _ _ IH. apply IH.
  - intros P ls. exists []. split; [reflexivity|constructor].
  - intros P ec t es Hec Ht (sub & Es & Hsub) _ IH ls. destruct (IH ls) as (rest & Er & Hrest).
    inversion Ht as [P0 es2 g2 Hh2 Hlt2 Hr2 Ht2 Hel2 Hcalm2 Hends2 Hes2 HP0 Ht0]. subst P0 t.
    assert (HP : P ++ ec <> []) by (intros E; apply app_eq_nil in E; tauto).
    destruct (node_candidate b trs T (P ++ ec) es2 g2 HP Ht Hh2 Hcalm2) as (ls2 & Ec & Hcand); [intros Hc; apply Ht2 in Hc; tauto|].
    exists (mk_seq (P ++ ec) ls2 :: sub ++ rest).
    split; [|constructor; [exact Hcand|apply Forall_app; split; assumption]].
    cbn [sequences locs_of] in Er |- *. rewrite Ec. cbn [bind]. cbn [sequences] in Es. rewrite Es. cbn [bind]. rewrite Er. reflexivity.
Qed.
Lemma sequences_ok b trs T t : wf trs T [] t -> exists ss, sequences b [] t = Ok ss /\ Forall (candidate trs) ss.
Proof. intros H. apply (proj1 (sequences_both b trs T) [] t H). Qed.

(** ** The best candidate. *)
Definition total (ls : list location) : Z := zsum (map repeat_count ls).
Lemma total_fold b ls : Forall (fun l => 1 <= repeat_count l <= 4) ls -> forall acc n, 0 <= acc ->
  ofold (fun acc l => arith b 8 (acc + repeat_count l)) ls acc = Ok n -> 0 <= n <= acc + total ls.
Proof.
  induction 1 as [|l ls Hl H IH]; intros acc n Hacc E; cbn [ofold] in E.
  - injection E as <-. unfold total. cbn. lia.
  - inv_bind E. assert (Ha0 : 0 <= a <= acc + repeat_count l).
    { clear - Ha Hacc Hl. unfold arith in Ha. destruct (_ && _) eqn:Eb; [injection Ha as <-; lia|]. destruct b; [discriminate|]. injection Ha as <-. change (2 ^ 8) with 256. lia. }
    specialize (IH a n ltac:(lia) E). unfold total in *. cbn [map zsum fold_right]. fold (zsum (map repeat_count ls)). lia.
Qed.
Lemma kept_spec b trs s : candidate trs s -> keep_sequence b s = Ok true -> (3 < length (seq_cmds s))%nat /\ 1 < total (seq_locs s).
Proof.
  intros Hc E. unfold keep_sequence in E. destruct (Nat.ltb_spec 3 (length (seq_cmds s))) as [Hl|]; [|discriminate]. split; [exact Hl|].
  inv_bind E. injection E as E. pose proof (total_fold b _ (cd_count _ _ Hc) 0 a ltac:(lia) Ha). lia.
Qed.
Lemma total_bounds ls : Forall (fun l => 1 <= repeat_count l <= 4) ls -> Z.of_nat (length ls) <= total ls.
Proof. induction 1 as [|l ls Hl H IH]; unfold total in *; cbn [map zsum fold_right length]; [lia|]. fold (zsum (map repeat_count ls)). lia. Qed.
(** The score of a kept candidate is positive, so the subtraction on usize never underflows. *)
Lemma score_pos s trs : candidate trs s -> (3 < length (seq_cmds s))%nat -> 1 < total (seq_locs s) ->
  0 < total (seq_locs s) * Z.of_nat (length (seq_cmds s)) - Z.of_nat (length (seq_cmds s) + length (seq_locs s)).
Proof. intros Hc Hl Ht. pose proof (total_bounds _ (cd_count _ _ Hc)). nia. Qed.
