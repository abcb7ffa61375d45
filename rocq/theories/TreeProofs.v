(** TreeProofs.v: the suffix tree of the optimiser: every location is a genuine occurrence (C27). *)
From Coq Require Import Sorted Arith.
From Verif Require Import Base ProofLib Command Track SeqTree Song SpecLoop.
Open Scope list_scope.

(** ** Positions: (track, start), in lexicographic order. *)
Definition pos := (nat * nat)%type.
Definition lep (a b : pos) : Prop := (fst a < fst b \/ fst a = fst b /\ snd a <= snd b)%nat.
Definition ltp (a b : pos) : Prop := (fst a < fst b \/ fst a = fst b /\ snd a < snd b)%nat.
Definition pos_of (l : location) : pos := (track_idx l, cmd_idx l).
Definition pos_dec (a b : pos) : {a = b} + {a <> b}.
Proof. decide equality; apply Nat.eq_dec. Defined.
Lemma lep_trans a b c : lep a b -> lep b c -> lep a c. Proof. unfold lep. lia. Qed.
Lemma ltp_lep a b : ltp a b -> lep a b. Proof. unfold lep, ltp. lia. Qed.
Lemma ltp_next a ti ss : ltp a (ti, S ss) <-> lep a (ti, ss). Proof. unfold lep, ltp. cbn [fst snd]. lia. Qed.
Lemma ltp_lep_trans a b c : ltp a b -> lep b c -> ltp a c. Proof. unfold lep, ltp. lia. Qed.
Lemma lep_refl a : lep a a. Proof. unfold lep. lia. Qed.

(** ** Locations as a fold over the additions. *)
Fixpoint add_pure (ls : list location) (p : pos) (n : nat) : list location :=
  match ls with
  | [] => [mk_loc (fst p) (snd p) 1]
  | l :: ls' =>
      if (Nat.eqb (track_idx l) (fst p) && Nat.eqb (cmd_idx l + n) (snd p))%bool
      then mk_loc (track_idx l) (cmd_idx l) (repeat_count l + 1) :: ls'
      else l :: add_pure ls' p n
  end.
Definition locs_after (n : nat) (g : list pos) : list location := fold_left (fun ls p => add_pure ls p n) g [].
Lemma locs_after_snoc n g p : locs_after n (g ++ [p]) = add_pure (locs_after n g) p n.
Proof. unfold locs_after. rewrite fold_left_app. reflexivity. Qed.

Lemma add_location_pure b ls ti ci n : Forall (fun l => 0 <= repeat_count l < 255) ls ->
  add_location b ls ti ci n = Ok (add_pure ls (ti, ci) n).
Proof.
  induction 1 as [|l ls Hl H IH]; cbn [add_location add_pure fst snd]; [reflexivity|].
  destruct (_ && _)%bool; [rewrite arith_exact by (change (2 ^ 8) with 256; lia); reflexivity|rewrite IH; reflexivity].
Qed.

Definition count (p : pos) (g : list pos) : nat := count_occ pos_dec g p.
Lemma count_snoc p g q : count p (g ++ [q]) = (count p g + if pos_dec q p then 1 else 0)%nat.
Proof. unfold count. rewrite count_occ_app. cbn [count_occ]. destruct (pos_dec q p); reflexivity. Qed.
Lemma count_in p g : In p g -> (1 <= count p g)%nat.
Proof. intros H. apply (count_occ_In pos_dec) in H. unfold count. lia. Qed.

Definition shift (p : pos) (n : nat) : pos := (fst p, (snd p + n)%nat).
Definition adjoins (l : location) (p : pos) (n : nat) : bool := (Nat.eqb (track_idx l) (fst p) && Nat.eqb (cmd_idx l + n) (snd p))%bool.
Lemma adjoins_spec l p n : adjoins l p n = true <-> shift (pos_of l) n = p.
Proof.
  unfold adjoins, shift, pos_of. destruct p as [a c]. cbn [fst snd]. rewrite andb_true_iff, !Nat.eqb_eq. split; [intros [-> ->]; reflexivity|intros H; injection H; auto].
Qed.
Lemma add_pure_cases ls p n :
  (exists l1 l l2, ls = l1 ++ l :: l2 /\ shift (pos_of l) n = p /\ Forall (fun x => shift (pos_of x) n <> p) l1 /\
     add_pure ls p n = l1 ++ mk_loc (track_idx l) (cmd_idx l) (repeat_count l + 1) :: l2) \/
  (Forall (fun x => shift (pos_of x) n <> p) ls /\ add_pure ls p n = ls ++ [mk_loc (fst p) (snd p) 1]).
Proof.
  induction ls as [|l ls IH]; cbn [add_pure]; [right; split; [constructor|reflexivity]|].
  fold (adjoins l p n). destruct (adjoins l p n) eqn:E.
  - left. exists [], l, ls. rewrite adjoins_spec in E. repeat split; auto.
  - assert (E' : shift (pos_of l) n <> p) by (rewrite <- adjoins_spec; congruence).
    destruct IH as [(l1 & x & l2 & -> & Hx & Hl1 & ->)|[Hf ->]].
    + left. exists (l :: l1), x, l2. repeat split; auto.
    + right. split; [constructor; auto|reflexivity].
Qed.

(** What is known of the location list of a node whose path has [n] commands. *)
Record locs_ok (n : nat) (g : list pos) (ls : list location) : Prop := mk_locs_ok {
  lk_sub : forall p, (count p (map pos_of ls) <= count p g)%nat;
  lk_sorted : StronglySorted lep (map pos_of ls);
  lk_rep : Forall (fun l => 1 <= repeat_count l <= 1 + Z.of_nat (count (shift (pos_of l) n) g)) ls;
  lk_sep : ForallOrdPairs (fun a b => shift (pos_of a) n <> pos_of b) ls
}.

Lemma sorted_snoc {A} (R : A -> A -> Prop) l x : StronglySorted R l -> Forall (fun y => R y x) l -> StronglySorted R (l ++ [x]).
Proof.
  induction 1 as [|y l H IH Hy]; intros Hf; cbn [app]; [constructor; constructor|].
  inversion Hf; subst. constructor; [apply IH; assumption|]. apply Forall_app. split; [assumption|constructor; [assumption|constructor]].
Qed.
Lemma sorted_app_inv {A} (R : A -> A -> Prop) l x : StronglySorted R (l ++ [x]) -> StronglySorted R l /\ Forall (fun y => R y x) l.
Proof.
  induction l as [|y l IH]; cbn [app]; intros H; [split; constructor|]. inversion H as [|? ? H1 H2]; subst.
  destruct (IH H1) as [Ha Hb]. apply Forall_app in H2. destruct H2 as [H2 H3]. inversion H3; subst. split; constructor; assumption.
Qed.
Lemma fop_snoc {A} (R : A -> A -> Prop) l x : ForallOrdPairs R l -> Forall (fun y => R y x) l -> ForallOrdPairs R (l ++ [x]).
Proof.
  induction 1 as [|y l Hy H IH]; intros Hf; cbn [app]; [constructor; constructor|].
  inversion Hf; subst. constructor; [apply Forall_app; split; [assumption|constructor; [assumption|constructor]]|apply IH; assumption].
Qed.
Lemma fop_app_inv {A} (R : A -> A -> Prop) l1 l2 : ForallOrdPairs R (l1 ++ l2) -> ForallOrdPairs R l1 /\ ForallOrdPairs R l2 /\ Forall (fun a => Forall (R a) l2) l1.
Proof.
  induction l1 as [|a l1 IH]; cbn [app]; intros H; [repeat split; [constructor|exact H|constructor]|].
  inversion H as [|? ? H1 H2]; subst. destruct (IH H2) as (Ha & Hb & Hc). apply Forall_app in H1. destruct H1 as [H1 H1'].
  repeat split; [constructor; assumption|assumption|constructor; assumption].
Qed.
Lemma count_app p a b : count p (a ++ b) = (count p a + count p b)%nat.
Proof. unfold count. apply count_occ_app. Qed.
Lemma count_cons p a b : count p (a :: b) = ((if pos_dec a p then 1 else 0) + count p b)%nat.
Proof. unfold count. cbn [count_occ]. destruct (pos_dec a p); reflexivity. Qed.
Lemma count_notin p g : ~ In p g -> count p g = 0%nat.
Proof. apply count_occ_not_In. Qed.

Lemma in_count p g : (1 <= count p g)%nat -> In p g.
Proof. intros H. apply (count_occ_In pos_dec). unfold count in H. lia. Qed.
Lemma lk_in n g ls l : locs_ok n g ls -> In l ls -> In (pos_of l) g.
Proof.
  intros H Hl. apply in_count. pose proof (lk_sub _ _ _ H (pos_of l)) as Hs. pose proof (count_in (pos_of l) (map pos_of ls) (in_map _ _ _ Hl)). lia.
Qed.
Lemma locs_after_ok n g : StronglySorted lep g -> locs_ok n g (locs_after n g).
Proof.
  induction g as [|p g IH] using rev_ind; intros Hg.
  - constructor; [intros p; reflexivity|constructor|constructor|constructor].
  - apply sorted_app_inv in Hg. destruct Hg as [Hg Hp]. specialize (IH Hg). rewrite locs_after_snoc.
    pose proof (fun l => lk_in n g (locs_after n g) l IH) as Hin.
    destruct (add_pure_cases (locs_after n g) p n) as [(l1 & l & l2 & E & Hl & Hl1 & ->)|[Hf ->]].
    + rewrite E in IH. destruct IH as [I1 I2 I3 I4].
      assert (Em : map pos_of (l1 ++ mk_loc (track_idx l) (cmd_idx l) (repeat_count l + 1) :: l2) = map pos_of (l1 ++ l :: l2)) by (rewrite !map_app; reflexivity).
      constructor.
      * intros q. rewrite Em, count_snoc. specialize (I1 q). lia.
      * rewrite Em. exact I2.
      * apply Forall_app in I3. destruct I3 as [Ia Ib]. inversion Ib as [|? ? Ib1 Ib2]; subst.
        assert (Hmono : forall l0, 1 <= repeat_count l0 <= 1 + Z.of_nat (count (shift (pos_of l0) n) g) ->
          1 <= repeat_count l0 <= 1 + Z.of_nat (count (shift (pos_of l0) n) (g ++ [shift (pos_of l) n]))) by (intros l0; rewrite count_snoc; destruct (pos_dec _ _); lia).
        apply Forall_app. split; [eapply Forall_impl; [exact Hmono|exact Ia]|]. constructor; [|eapply Forall_impl; [exact Hmono|exact Ib2]].
        cbn [repeat_count]. change (pos_of (mk_loc (track_idx l) (cmd_idx l) (repeat_count l + 1))) with (pos_of l).
        rewrite count_snoc. destruct (pos_dec _ _) as [_|Hne]; [lia|congruence].
      * apply fop_app_inv in I4. destruct I4 as (Ja & Jb & Jc). inversion Jb as [|? ? Jb1 Jb2]; subst.
        clear - Ja Jb1 Jb2 Jc. induction l1 as [|a l1 IH]; cbn [app].
        -- constructor; [exact Jb1|exact Jb2].
        -- inversion Ja; subst. inversion Jc; subst. match goal with H : Forall _ (l :: l2) |- _ => inversion H; subst end.
           constructor; [|apply IH; assumption]. apply Forall_app. split; [assumption|]. constructor; assumption.
    + destruct IH as [I1 I2 I3 I4].
      assert (Ep : pos_of (mk_loc (fst p) (snd p) 1) = p) by (destruct p; reflexivity). constructor.
      * intros q. rewrite map_app. cbn [map]. rewrite Ep, !count_snoc. specialize (I1 q). lia.
      * rewrite map_app. cbn [map]. rewrite Ep. apply sorted_snoc; [exact I2|]. apply Forall_forall. intros q Hq. apply in_map_iff in Hq.
        destruct Hq as (l & <- & Hl). rewrite Forall_forall in Hp. apply Hp, Hin, Hl.
      * apply Forall_app. split.
        -- eapply Forall_impl; [|exact I3]. cbn beta. intros l0. rewrite count_snoc. destruct (pos_dec _ _); lia.
        -- constructor; [|constructor]. cbn [repeat_count]. lia.
      * apply fop_snoc; [exact I4|]. eapply Forall_impl; [|exact Hf]. cbn beta. intros a Ha. rewrite Ep. exact Ha.
Qed.

(** A history of additions: in order, each position at most twice, each a genuine occurrence. *)
Definition occ_at (trs : list track) (P : list pcmd) (p : pos) : Prop :=
  exists tr, nth_error trs (fst p) = Some tr /\ occurs P tr (snd p).
Record history_ok (trs : list track) (P : list pcmd) (g : list pos) : Prop := mk_history_ok {
  hk_sorted : StronglySorted lep g;
  hk_twice : forall p, (count p g <= 2)%nat;
  hk_occ : Forall (occ_at trs P) g
}.
Lemma rep_bound n g ls : locs_ok n g ls -> (forall p, (count p g <= 2)%nat) -> Forall (fun l => 1 <= repeat_count l <= 3) ls.
Proof. intros H Hc. eapply Forall_impl; [|exact (lk_rep _ _ _ H)]. cbn beta. intros l Hl. specialize (Hc (shift (pos_of l) n)). lia. Qed.

(** Adding one position to a node. *)
Lemma add_history trs P g b ti ss : history_ok trs P g -> Forall (fun q => lep q (ti, ss)) g -> (count (ti, ss) g <= 1)%nat ->
  occ_at trs P (ti, ss) ->
  history_ok trs P (g ++ [(ti, ss)]) /\
  add_location b (locs_after (length P) g) ti ss (length P) = Ok (locs_after (length P) (g ++ [(ti, ss)])).
Proof.
  intros [H1 H2 H3] Hle Hc Ho. split.
  - constructor; [apply sorted_snoc; assumption| |apply Forall_app; split; [assumption|constructor; [exact Ho|constructor]]].
    intros p. rewrite count_snoc. specialize (H2 p). destruct (pos_dec _ _) as [<-|]; lia.
  - rewrite locs_after_snoc. apply add_location_pure.
    eapply Forall_impl; [|apply (rep_bound (length P) g); [apply locs_after_ok; exact H1|exact H2]]. cbn beta. intros; lia.
Qed.

(** Rebuilding the location list of a split node from those of the node below. *)
Lemma add_all_pure b n g : StronglySorted lep g -> (forall p, (count p g <= 2)%nat) -> forall g1 g2, g = g1 ++ g2 ->
  ofold (fun acc (p : pos) => add_location b acc (fst p) (snd p) n) g2 (locs_after n g1) = Ok (locs_after n g).
Proof.
  intros Hs Hc g1 g2. revert g1. induction g2 as [|p g2 IH]; intros g1 E; cbn [ofold].
  - rewrite app_nil_r in E. congruence.
  - assert (Hs1 : StronglySorted lep g1 /\ forall q, (count q g1 <= 2)%nat).
    { subst g. split; [|intros q; specialize (Hc q); rewrite count_app in Hc; lia].
      clear - Hs. induction g1 as [|a g1 IH]; [constructor|]. cbn [app] in Hs. inversion Hs as [|? ? Ha Hb]; subst. constructor; [apply IH; exact Ha|].
      apply Forall_app in Hb. tauto. }
    rewrite add_location_pure by (eapply Forall_impl; [|apply (rep_bound n g1); [apply locs_after_ok; tauto|tauto]]; cbn beta; intros; lia).
    cbn [bind]. replace (fst p, snd p) with p by (destruct p; reflexivity). rewrite <- locs_after_snoc. apply IH. subst g. rewrite <- app_assoc. reflexivity.
Qed.
Lemma ofold_map {A B S} (h : A -> B) (f : S -> B -> outcome S) l : forall s, ofold f (map h l) s = ofold (fun s a => f s (h a)) l s.
Proof. induction l as [|a l IH]; intros s; cbn [map ofold]; [reflexivity|]. destruct (f s (h a)); cbn [bind]; auto. Qed.
Lemma split_locations b trs P Q g : history_ok trs (P ++ Q) g ->
  ofold (fun acc l => add_location b acc (track_idx l) (cmd_idx l) (length P)) (locs_after (length (P ++ Q)) g) [] =
    Ok (locs_after (length P) (map pos_of (locs_after (length (P ++ Q)) g))) /\
  history_ok trs P (map pos_of (locs_after (length (P ++ Q)) g)).
Proof.
  intros [H1 H2 H3]. pose proof (locs_after_ok (length (P ++ Q)) g H1) as Hk.
  assert (Hh : history_ok trs P (map pos_of (locs_after (length (P ++ Q)) g))).
  { constructor; [exact (lk_sorted _ _ _ Hk)|intros p; pose proof (lk_sub _ _ _ Hk p); specialize (H2 p); lia|].
    apply Forall_forall. intros p Hp. apply in_map_iff in Hp. destruct Hp as (l & <- & Hl). apply (lk_in _ _ _ _ Hk) in Hl.
    rewrite Forall_forall in H3. destruct (H3 _ Hl) as (tr & Htr & pre & post & E & Hpre). exists tr. split; [exact Htr|].
    exists pre, (Q ++ post). rewrite E, <- !app_assoc. auto. }
  split; [|exact Hh]. destruct Hh as [K1 K2 K3].
  pose proof (add_all_pure b (length P) _ K1 K2 [] _ eq_refl) as E. rewrite ofold_map in E. exact E.
Qed.

(** ** Occurrences, command by command. *)
Lemma occurs_nth P tr c : occurs P tr c <-> (c + length P <= length tr)%nat /\ forall k, (k < length P)%nat -> nth_error tr (c + k) = nth_error P k.
Proof.
  split.
  - intros (pre & post & -> & <-). split; [rewrite !app_length; lia|]. intros k Hk. rewrite nth_error_app2 by lia. replace (length pre + k - length pre)%nat with k by lia.
    apply nth_error_app1. exact Hk.
  - intros [H1 H2]. exists (firstn c tr), (skipn (c + length P) tr). split; [|apply firstn_length_le; lia].
    rewrite <- (firstn_skipn c tr) at 1. f_equal. clear - H1 H2. revert tr c H1 H2. induction P as [|x P IH]; intros tr c H1 H2.
    + cbn [length app] in *. rewrite Nat.add_0_r. reflexivity.
    + cbn [length app] in *. pose proof (H2 0%nat ltac:(lia)) as H0. rewrite Nat.add_0_r in H0. cbn [nth_error] in H0.
      assert (E : skipn c tr = x :: skipn (S c) tr).
      { clear - H0. revert tr H0. induction c as [|c IHc]; intros [|y tr] H0; cbn [nth_error] in H0; try discriminate; [injection H0 as ->; reflexivity|].
        cbn [skipn]. apply (IHc tr H0). }
      rewrite E. f_equal. replace (c + S (length P))%nat with (S c + length P)%nat by lia. apply IH; [lia|].
      intros k Hk. specialize (H2 (S k) ltac:(lia)). cbn [nth_error] in H2. replace (S c + k)%nat with (c + S k)%nat by lia. exact H2.
Qed.
Lemma nth_error_skipped {A} n (l : list A) k : nth_error (skipn n l) k = nth_error l (n + k).
Proof. revert l. induction n as [|n IH]; intros l; [reflexivity|]. destruct l as [|x l]; cbn [skipn Nat.add nth_error]; [destruct k; reflexivity|apply IH]. Qed.
(** The command after an occurrence of [P] at [p], if it may be in a loop. *)
Definition follows (trs : list track) (P : list pcmd) (p : pos) : option pcmd :=
  match nth_error trs (fst p) with
  | Some tr => match nth_error tr (snd p + length P) with
               | Some c => if call_loop_eligible c then Some c else None
               | None => None
               end
  | None => None
  end.
Lemma follows_at (trs : list (list pcmd)) (P : list pcmd) i c (tr : list pcmd) : nth_error trs i = Some tr ->
  follows trs P (i, c) = match nth_error tr (c + length P) with Some x => if call_loop_eligible x then Some x else None | None => None end.
Proof. intros H. unfold follows. cbn [fst snd]. change track with (list pcmd). rewrite H. reflexivity. Qed.
(** [P] is not always continued in the same way before [T]. *)
Definition ends (trs : list track) (T : pos) (P : list pcmd) : Prop :=
  exists p, ltp p T /\ occ_at trs P p /\ (follows trs P p = None \/ exists p', ltp p' T /\ occ_at trs P p' /\ follows trs P p' <> follows trs P p).
Lemma ends_mono trs T T' P : lep T T' -> ends trs T P -> ends trs T' P.
Proof.
  intros H (p & Hp & Ho & Hf). exists p. split; [eapply ltp_lep_trans; eassumption|]. split; [exact Ho|]. destruct Hf as [Hf|(p' & Hp' & Hr)]; [left; exact Hf|].
  right. exists p'. split; [eapply ltp_lep_trans; eassumption|exact Hr].
Qed.
Lemma eligible_loop c : call_loop_eligible c = true -> may_loop c.
Proof. unfold call_loop_eligible, may_loop. destruct (cmd c); auto; discriminate. Qed.
(** Where repeats are fresh, a sequence that occurs again at a distance within itself has always been
    continued in the same way. *)
Lemma fresh_not_ends trs Q q d : fresh_repeats trs -> Forall (fun c => call_loop_eligible c = true) Q -> (4 <= d <= length Q)%nat ->
  occ_at trs Q q -> occ_at trs Q (shift q d) -> ~ ends trs (shift q d) Q.
Proof.
  intros Hfr Hel Hd (tr & Htr & Hq) (tr2 & Htr2 & Hqd) (p & Hp & Ho & Hends). unfold shift in *. cbn [fst snd] in *. rewrite Htr in Htr2. injection Htr2 as <-.
  destruct q as [i q]. cbn [fst snd] in *. apply occurs_nth in Hq, Hqd. destruct Hq as [Hq1 Hq2], Hqd as [Hd1 Hd2].
  set (w := firstn d Q). assert (Hw : length w = d) by (apply firstn_length_le; lia).
  assert (Hwn : forall k, (k < d)%nat -> nth_error w k = nth_error Q k).
  { intros k Hk. unfold w. rewrite <- (firstn_skipn d Q) at 2. symmetry. apply nth_error_app1. fold w. lia. }
  assert (Hww : occurs (w ++ w) tr q).
  { apply occurs_nth. rewrite app_length, Hw. split; [lia|]. intros k Hk. destruct (Nat.lt_ge_cases k d) as [Hkd|Hkd].
    - rewrite nth_error_app1, Hwn by lia. apply Hq2. lia.
    - rewrite nth_error_app2, Hw, Hwn by lia. rewrite <- Hd2 by lia. f_equal. lia. }
  assert (Hwm : Forall may_loop w).
  { unfold w. apply Forall_forall. intros c Hc. apply eligible_loop. rewrite Forall_forall in Hel. apply Hel. rewrite <- (firstn_skipn d Q). apply in_app_iff. left. exact Hc. }
  assert (Hper : forall k, (q <= k < q + length Q)%nat -> nth_error tr k = nth_error tr (k + d)).
  { intros k Hk. specialize (Hq2 (k - q)%nat ltac:(lia)). specialize (Hd2 (k - q)%nat ltac:(lia)). replace (q + (k - q))%nat with k in Hq2 by lia.
    replace (q + d + (k - q))%nat with (k + d)%nat in Hd2 by lia. congruence. }
  assert (Hall : forall r, ltp r (i, (q + d)%nat) -> occ_at trs Q r -> follows trs Q r = nth_error Q (length Q - d)).
  { intros [j r] Hr (tr' & Htr' & Hor). unfold ltp in Hr. cbn [fst snd] in *. pose proof Hor as Hor'. apply occurs_nth in Hor. destruct Hor as [Ho1 Ho2].
    assert (Hwr : occurs w tr' r).
    { apply occurs_nth. rewrite Hw. split; [lia|]. intros k Hk. rewrite Hwn by lia. apply Ho2. lia. }
    assert (Hj : j = i /\ forall k, (r <= k < q)%nat -> nth_error tr k = nth_error tr (k + d)).
    { destruct (Nat.eq_dec j i) as [->|Hne].
      - split; [reflexivity|]. intros k Hk. rewrite <- Hw. refine (proj2 (proj2 (Hfr i tr w q Htr _ Hwm Hww i tr' r Htr' Hwr _)) k Hk); lia.
      - exfalso. apply Hne. refine (proj1 (Hfr i tr w q Htr _ Hwm Hww j tr' r Htr' Hwr _)); lia. }
    destruct Hj as [-> Hj]. rewrite Htr in Htr'. injection Htr' as <-. rewrite (follows_at _ _ _ _ _ Htr).
    assert (E : nth_error tr (r + length Q) = nth_error Q (length Q - d)).
    { rewrite <- Ho2 by lia. replace (r + length Q)%nat with (r + (length Q - d) + d)%nat by lia. symmetry.
      destruct (Nat.lt_ge_cases (r + (length Q - d)) q) as [Hlt|Hge]; [apply Hj; lia|apply Hper; lia]. }
    rewrite E. destruct (nth_error Q (length Q - d)) as [c|] eqn:Ec; [|reflexivity].
    rewrite Forall_forall in Hel. rewrite Hel by (eapply nth_error_In; exact Ec). reflexivity. }
  rewrite (Hall p Hp Ho) in Hends. destruct Hends as [Hn|(p' & Hp' & Ho' & Hne)].
  - apply nth_error_None in Hn. lia.
  - apply Hne. apply Hall; assumption.
Qed.
(** A position counted twice does not directly follow another one. *)
Definition calm (trs : list track) (P : list pcmd) (g : list pos) : Prop :=
  fresh_repeats trs -> forall p, (2 <= count p g)%nat -> forall q d, In q g -> (4 <= d <= length P)%nat -> shift q d <> p.
Lemma calm_once trs P g p : Forall (fun q => lep q p) g -> count p g = 0%nat -> calm trs P g -> calm trs P (g ++ [p]).
Proof.
  intros Hle Hc Hcalm Hfr p0 H2 q d Hq Hd E. rewrite count_snoc in H2. destruct (pos_dec p p0) as [<-|Hne]; [lia|]. rewrite Nat.add_0_r in H2.
  apply in_app_iff in Hq. destruct Hq as [Hq|[<-|[]]]; [exact (Hcalm Hfr p0 H2 q d Hq Hd E)|].
  assert (Hp0 : In p0 g) by (apply in_count; lia). rewrite Forall_forall in Hle. specialize (Hle p0 Hp0). subst p0. unfold shift, lep in Hle. cbn [fst snd] in Hle. lia.
Qed.
Lemma calm_twice trs P g p : Forall (fun c => call_loop_eligible c = true) P -> history_ok trs P g -> Forall (fun q => ltp q p) g -> occ_at trs P p ->
  ends trs p P -> calm trs P g -> calm trs P ((g ++ [p]) ++ [p]).
Proof.
  intros Hel Hh Hlt Ho He Hcalm Hfr p0 H2 q d Hq Hd E.
  assert (Hq' : In q g \/ q = p) by (rewrite !in_app_iff in Hq; cbn [In] in Hq; intuition congruence).
  rewrite !count_snoc in H2. destruct (pos_dec p p0) as [<-|Hne].
  - destruct Hq' as [Hq'|Hq'].
    + subst p. pose proof (hk_occ _ _ _ Hh) as Hocc. rewrite Forall_forall in Hocc. exact (fresh_not_ends trs P q d Hfr Hel Hd (Hocc q Hq') Ho He).
    + subst q. unfold shift in E. apply (f_equal snd) in E. cbn [snd] in E. lia.
  - rewrite !Nat.add_0_r in H2. destruct Hq' as [Hq'|Hq']; [exact (Hcalm Hfr p0 H2 q d Hq' Hd E)|].
    assert (Hp0 : In p0 g) by (apply in_count; lia). rewrite Forall_forall in Hlt. specialize (Hlt p0 Hp0). subst. unfold shift, ltp in Hlt. cbn [fst snd] in Hlt. lia.
Qed.
Lemma calm_split trs P Q g : StronglySorted lep g -> calm trs (P ++ Q) g -> calm trs P (map pos_of (locs_after (length (P ++ Q)) g)).
Proof.
  intros Hs Hcalm Hfr p H2 q d Hq Hd E. pose proof (locs_after_ok (length (P ++ Q)) g Hs) as Hk. pose proof (lk_sub _ _ _ Hk p) as Hp.
  refine (Hcalm Hfr p _ q d _ _ E); [lia| |rewrite app_length; lia]. apply in_map_iff in Hq. destruct Hq as (l & <- & Hl). exact (lk_in _ _ _ _ Hk Hl).
Qed.
Lemma calm_few trs P g : (forall p, (count p g <= 1)%nat) -> calm trs P g.
Proof. intros H _ p H2. specialize (H p). lia. Qed.

(** ** The invariant of the tree, when all suffixes before position [T] have been added. *)
Definition starts_tie (P : list pcmd) : Prop := exists c P', P = c :: P' /\ can_be_first_in_call_loop c = false.
Inductive wf (trs : list track) (T : pos) : list pcmd -> tree -> Prop :=
| wf_node : forall P es g, history_ok trs P g -> Forall (fun q => ltp q T) g -> (P = [] -> g = []) ->
    (starts_tie P -> (length g <= 1)%nat /\ es = []) -> Forall (fun c => call_loop_eligible c = true) P ->
    calm trs P g -> (P <> [] -> ends trs T P) -> wf_edges trs T P es -> wf trs T P (Node es (locs_after (length P) g))
with wf_edges (trs : list track) (T : pos) : list pcmd -> list edge -> Prop :=
| we_nil : forall P, wf_edges trs T P []
| we_cons : forall P ec t es, ec <> [] -> wf trs T (P ++ ec) t -> wf_edges trs T P es ->
    wf_edges trs T P (Edge ec (Some t) :: es).
Scheme wf_mut := Induction for wf Sort Prop with wf_edges_mut := Induction for wf_edges Sort Prop.
Combined Scheme wf_both from wf_mut, wf_edges_mut.

Lemma wf_mono_both trs T T' : lep T T' -> (forall P t, wf trs T P t -> wf trs T' P t) /\ (forall P es, wf_edges trs T P es -> wf_edges trs T' P es).
Proof.
  intros HT. apply (wf_both trs T (fun P t _ => wf trs T' P t) (fun P es _ => wf_edges trs T' P es)).
  - intros P es g H1 H2 H3 H4 H5 H6 H7 H8 IH. constructor; try assumption; [|intros HP; eapply ends_mono; [exact HT|exact (H7 HP)]].
    eapply Forall_impl; [|exact H2]. cbn beta. intros q Hq. eapply ltp_lep_trans; eassumption.
  - intros. constructor.
  - intros. constructor; assumption.
Qed.
Lemma wf_mono trs T T' P t : lep T T' -> wf trs T P t -> wf trs T' P t. Proof. intros H. apply (wf_mono_both trs T T' H). Qed.
Lemma wf_edges_mono trs T T' P t : lep T T' -> wf_edges trs T P t -> wf_edges trs T' P t. Proof. intros H. apply (wf_mono_both trs T T' H). Qed.
Lemma wf_edges_app trs T P es1 es2 : wf_edges trs T P es1 -> wf_edges trs T P es2 -> wf_edges trs T P (es1 ++ es2).
Proof. induction 1; intros; cbn [app]; [assumption|constructor; auto]. Qed.
Lemma wf_edges_nth trs T P es : wf_edges trs T P es -> forall i e, nth_error es i = Some e -> exists ec t, e = Edge ec (Some t) /\ ec <> [] /\ wf trs T (P ++ ec) t.
Proof. induction 1 as [|P ec t es Hec Ht Hes IH]; intros [|i] e E; cbn [nth_error] in E; try discriminate; [injection E as <-; exists ec, t; auto|eauto]. Qed.
Lemma wf_edges_set trs T P es : wf_edges trs T P es -> forall i ec t es', ec <> [] -> wf trs T (P ++ ec) t -> set_nth es i (Edge ec (Some t)) = Some es' -> wf_edges trs T P es'.
Proof.
  induction 1 as [|P ec0 t0 es Hec Ht Hes IH]; intros [|i] ec t es' H1 H2 E; cbn [set_nth] in E; try discriminate.
  - injection E as <-. constructor; assumption.
  - destruct (set_nth es i _) eqn:E'; [|discriminate]. injection E as <-. constructor; try assumption. eapply IH; eassumption.
Qed.

Lemma pcmd_eqb_spec a b : pcmd_eqb a b = true <-> a = b.
Proof. unfold pcmd_eqb. destruct (pcmd_eq_dec a b); split; congruence. Qed.
Lemma find_edge_ok trs T P es c : wf_edges trs T P es -> find_edge es c = Ok None \/
  exists i ec t, find_edge es c = Ok (Some i) /\ nth_error es i = Some (Edge (c :: ec) (Some t)) /\ wf trs T (P ++ c :: ec) t.
Proof.
  induction 1 as [|P ec t es Hec Ht Hes IH]; cbn [find_edge]; [left; reflexivity|]. destruct ec as [|c0 ec]; [congruence|]. cbn [ecmds_of].
  destruct (pcmd_eqb c0 c) eqn:E.
  - apply pcmd_eqb_spec in E. subst c0. right. exists 0%nat, ec, t. auto.
  - destruct IH as [->|(i & ec' & t' & -> & Hn & Hw)]; [left; reflexivity|]. right. exists (S i), ec', t'. auto.
Qed.
Lemma shared_len_spec a : forall b, firstn (shared_len a b) a = firstn (shared_len a b) b /\ (shared_len a b <= length a)%nat /\ (shared_len a b <= length b)%nat.
Proof.
  induction a as [|x a IH]; intros [|y b]; cbn [shared_len]; try (cbn; repeat split; lia).
  destruct (pcmd_eqb x y) eqn:E; [|cbn; repeat split; lia]. apply pcmd_eqb_spec in E. subst y. destruct (IH b) as (H1 & H2 & H3).
  cbn [firstn length]. rewrite H1. repeat split; lia.
Qed.
Lemma shared_len_pos c a b : (0 < shared_len (c :: a) (c :: b))%nat.
Proof. cbn [shared_len]. destruct (pcmd_eqb c c) eqn:E; [lia|]. assert (pcmd_eqb c c = true) by (apply pcmd_eqb_spec; reflexivity). congruence. Qed.
Lemma eligible_last c : call_loop_eligible c = true -> can_be_last_in_call_loop c = true.
Proof. unfold call_loop_eligible, can_be_last_in_call_loop. destruct (cmd c); congruence. Qed.
Lemma trim_id n cmds ec : (forall i c, (i < n)%nat -> nth_error cmds i = Some c -> call_loop_eligible c = true) -> trim_shared n cmds ec = n.
Proof.
  destruct n as [|n]; intros H; cbn [trim_shared]; [reflexivity|]. destruct (nth_error cmds n) as [c|] eqn:E.
  - rewrite (eligible_last c) by (apply (H n); [lia|exact E]). cbn [negb]. rewrite andb_false_r. reflexivity.
  - cbn [negb]. rewrite andb_false_r. reflexivity.
Qed.
Lemma nth_error_firstn_eq {A} n : forall (a b : list A) i, firstn n a = firstn n b -> (i < n)%nat -> nth_error a i = nth_error b i.
Proof.
  induction n as [|n IH]; intros a b i H Hi; [lia|]. destruct a as [|x a], b as [|y b]; cbn [firstn] in H; try discriminate; [reflexivity|].
  injection H as -> H. destruct i as [|i]; cbn [nth_error]; [reflexivity|]. apply IH; [exact H|lia].
Qed.
Lemma take_while_prefix {A} (p : A -> bool) l : exists r, l = take_while p l ++ r /\ Forall (fun x => p x = true) (take_while p l).
Proof.
  induction l as [|x l (r & E & Hf)]; cbn [take_while]; [exists []; split; [reflexivity|constructor]|]. destruct (p x) eqn:Ep.
  - exists r. split; [cbn [app]; congruence|constructor; assumption].
  - exists (x :: l). split; [reflexivity|constructor].
Qed.
Lemma take_while_next {A} (p : A -> bool) l t x r : take_while p l = t -> l = t ++ x :: r -> p x = false.
Proof.
  intros <-. induction l as [|y l IH]; cbn [take_while]; [discriminate|]. destruct (p y) eqn:Ey; cbn [app]; intros E.
  - injection E as E. exact (IH E).
  - injection E as <- _. exact Ey.
Qed.
Lemma shared_len_differs a : forall b, (shared_len a b < length b)%nat -> nth_error a (shared_len a b) <> nth_error b (shared_len a b).
Proof.
  induction a as [|x a IH]; intros [|y b] H; cbn [shared_len] in *; try (cbn [length] in H; lia); [cbn [nth_error]; discriminate|].
  destruct (pcmd_eqb x y) eqn:E; cbn [nth_error length] in *; [apply IH; lia|]. intros Hxy. injection Hxy as <-.
  assert (pcmd_eqb x x = true) by (apply pcmd_eqb_spec; reflexivity). congruence.
Qed.
Lemma wf_eligible trs T P t : wf trs T P t -> Forall (fun c => call_loop_eligible c = true) P.
Proof. inversion 1; assumption. Qed.
Lemma occ_suffix trs ti tr ss P post : nth_error trs ti = Some tr -> (ss <= length tr)%nat -> skipn ss tr = P ++ post -> occ_at trs P (ti, ss).
Proof.
  intros H1 H2 H3. exists tr. split; [exact H1|]. exists (firstn ss tr), post. rewrite <- H3, firstn_skipn, firstn_length_le by exact H2. auto.
Qed.
Lemma push_edge_wf trs ti tr ss P es cmds : nth_error trs ti = Some tr -> (ss <= length tr)%nat -> skipn ss tr = P ++ cmds ->
  Forall (fun c => call_loop_eligible c = true) P -> forall n,
  wf_edges trs (ti, S ss) P es -> wf_edges trs (ti, S ss) P (push_edge es cmds ti ss n).
Proof.
  intros H1 H2 H3 He n Hes. unfold push_edge. destruct (take_while_prefix call_loop_eligible cmds) as (r & E & Hf).
  destruct (take_while call_loop_eligible cmds) as [|c rc] eqn:Et; [exact Hes|]. apply wf_edges_app; [exact Hes|].
  constructor; [discriminate| |constructor].
  change [mk_loc ti ss 1] with (locs_after (length (P ++ c :: rc)) [(ti, ss)]). constructor.
  - constructor; [constructor; [constructor|constructor]| |].
    + intros p. rewrite count_cons. change (count p []) with 0%nat. destruct (pos_dec _ _); lia.
    + constructor; [|constructor]. eapply occ_suffix; [exact H1|exact H2|]. rewrite H3, E, app_assoc. reflexivity.
  - constructor; [unfold ltp; cbn [fst snd]; lia|constructor].
  - destruct P; discriminate.
  - intros _. split; [cbn [length]; lia|reflexivity].
  - apply Forall_app. split; assumption.
  - apply calm_few. intros p. rewrite count_cons. change (count p []) with 0%nat. destruct (pos_dec _ _); lia.
  - intros _. exists (ti, ss). split; [unfold ltp; cbn [fst snd]; lia|].
    assert (Hs : skipn ss tr = (P ++ c :: rc) ++ r) by (rewrite H3, E, app_assoc; reflexivity).
    split; [eapply occ_suffix; [exact H1|exact H2|exact Hs]|]. left. rewrite (follows_at _ _ _ _ _ H1).
    rewrite <- nth_error_skipped, Hs, nth_error_app2, Nat.sub_diag by lia. destruct r as [|x r]; cbn [nth_error]; [reflexivity|].
    rewrite (take_while_next call_loop_eligible cmds (c :: rc) x r Et E). reflexivity.
  - constructor.
Qed.

Lemma not_tie_app P ec : ~ starts_tie P -> (P = [] -> forall c e, ec = c :: e -> can_be_first_in_call_loop c = true) -> ~ starts_tie (P ++ ec).
Proof.
  intros H1 H2 (c & P' & E & Hc). destruct P as [|p P]; cbn [app] in E.
  - rewrite (H2 eq_refl c P' E) in Hc. discriminate.
  - injection E as -> _. apply H1. exists c, P. auto.
Qed.
Lemma lt_count T g : Forall (fun q => ltp q T) g -> count T g = 0%nat.
Proof. intros H. apply count_notin. intros Hi. rewrite Forall_forall in H. specialize (H _ Hi). unfold ltp in H. lia. Qed.

Lemma add_commands_wf fuel : forall b trs P es g cmds ti ss tr, (length cmds < fuel)%nat ->
  nth_error trs ti = Some tr -> (ss <= length tr)%nat -> skipn ss tr = P ++ cmds -> ~ starts_tie P ->
  history_ok trs P g -> Forall (fun q => ltp q (ti, S ss)) g -> (count (ti, ss) g <= 1)%nat -> (P = [] -> g = []) ->
  Forall (fun c => call_loop_eligible c = true) P -> calm trs P (g ++ [(ti, ss)]) -> (P <> [] -> ends trs (ti, S ss) P) -> wf_edges trs (ti, ss) P es ->
  exists t', add_commands fuel b (Node es (locs_after (length P) g)) cmds ti ss (length P) = Ok t' /\ wf trs (ti, S ss) P t'.
Proof.
  induction fuel as [|fuel IH]; intros b trs P es g cmds ti ss tr Hfuel Htr Hss Hcmds Htie Hg Hlt Hone Hroot Hel Hcalm Hends Hes; [lia|].
  cbn [add_commands locs_of edges_of].
  assert (Hle : Forall (fun q => lep q (ti, ss)) g) by (eapply Forall_impl; [|exact Hlt]; intros q; apply ltp_next).
  assert (Hup : lep (ti, ss) (ti, S ss)) by (unfold lep; cbn [fst snd]; lia).
  assert (Hls : exists g', (if Nat.ltb 0 (length P) then add_location b (locs_after (length P) g) ti ss (length P) else Ok (locs_after (length P) g))
      = Ok (locs_after (length P) g') /\ history_ok trs P g' /\ Forall (fun q => ltp q (ti, S ss)) g' /\ (P = [] -> g' = []) /\ calm trs P g').
  { destruct P as [|p P]; cbn [length Nat.ltb Nat.leb]; [exists g; split; [reflexivity|]; split; [exact Hg|]; split; [exact Hlt|]; split; [exact Hroot|]; rewrite (Hroot eq_refl); apply calm_few; intros p; unfold count; cbn; lia|].
    destruct (add_history trs (p :: P) g b ti ss Hg Hle Hone) as [Ha Hb]; [eapply occ_suffix; eassumption|].
    exists (g ++ [(ti, ss)]). split; [exact Hb|]. split; [exact Ha|]. split; [|split; [discriminate|exact Hcalm]].
    apply Forall_app. split; [exact Hlt|]. constructor; [unfold ltp; cbn [fst snd]; lia|constructor]. }
  destruct Hls as (g' & -> & Hg' & Hlt' & Hroot' & Hcalm'). cbn [bind].
  assert (Hnode : forall es', wf_edges trs (ti, S ss) P es' -> wf trs (ti, S ss) P (Node es' (locs_after (length P) g'))).
  { intros es' H. constructor; try assumption. intros Hc. contradiction. }
  destruct cmds as [|c0 cmds']; [eexists; split; [reflexivity|apply Hnode; eapply wf_edges_mono; eassumption]|].
  set (cmds := c0 :: cmds') in *.
  assert (Hpush : exists t', Ok (Node (push_edge es cmds ti ss (length P)) (locs_after (length P) g')) = Ok t' /\ wf trs (ti, S ss) P t').
  { eexists. split; [reflexivity|]. apply Hnode. eapply push_edge_wf; try eassumption. eapply wf_edges_mono; eassumption. }
  destruct (find_edge_ok trs (ti, ss) P es c0 Hes) as [->|(i & ec' & tg & -> & Hi & Hwt)]; cbn [bind]; [exact Hpush|].
  rewrite Hi. cbn [or_panic bind ecmds_of target_of]. set (ec := c0 :: ec') in *.
  destruct (shared_len_spec cmds ec) as (Hs1 & Hs2 & Hs3). pose proof (shared_len_pos c0 cmds' ec') as Hpos. fold cmds ec in Hpos.
  set (n := shared_len cmds ec) in *.
  pose proof (wf_eligible _ _ _ _ Hwt) as Hecel. apply Forall_app in Hecel. destruct Hecel as [_ Hecel].
  assert (Htrim : trim_shared n cmds ec = n).
  { apply trim_id. intros k c Hk Hc. rewrite (nth_error_firstn_eq n cmds ec k Hs1 Hk) in Hc. rewrite Forall_forall in Hecel. apply Hecel. eapply nth_error_In; exact Hc. }
  rewrite Htrim. destruct (Nat.ltb_spec 0 n) as [_|]; [|lia]. destruct (can_be_first_in_call_loop c0) eqn:Hfirst; cbn [andb]; [|exact Hpush].
  assert (Hsplit : cmds = firstn n ec ++ skipn n cmds) by (rewrite <- Hs1; symmetry; apply firstn_skipn).
  assert (Hrest : skipn ss tr = (P ++ firstn n ec) ++ skipn n cmds) by (rewrite Hcmds, <- app_assoc; congruence).
  assert (Hlen : length (P ++ firstn n ec) = (length P + n)%nat) by (rewrite app_length, firstn_length_le; lia).
  assert (Htie' : ~ starts_tie (P ++ firstn n ec)).
  { apply not_tie_app; [exact Htie|]. intros _ c e E. destruct n as [|n']; [lia|]. cbn [firstn ec] in E. congruence. }
  assert (Hshort : (length (skipn n cmds) < fuel)%nat) by (rewrite skipn_length; cbn [length cmds] in *; lia).
  assert (Hset : forall e', exists es', set_nth es i e' = Some es').
  { intros e'. apply set_nth_some. eapply nth_error_lt; exact Hi. }
  inversion Hwt as [P0 es2 g2 Hh2 Hlt2 Hr2 Ht2 Hel2 Hcalm2 Hends2 Hes2 HP0 Ht0]. subst P0 tg.
  assert (Hne : P ++ ec <> []) by (destruct P; discriminate). specialize (Hends2 Hne).
  destruct (Nat.eqb_spec n (length ec)) as [Hn|Hn].
  - (* the whole edge matches *)
    assert (Hfull : firstn n ec = ec) by (rewrite Hn; apply firstn_all). rewrite Hfull in *. cbn [or_panic bind locs_of edges_of].
    assert (Hle2 : Forall (fun q => lep q (ti, ss)) g2) by (eapply Forall_impl; [|exact Hlt2]; intros q; apply ltp_lep).
    destruct (add_history trs (P ++ ec) g2 b ti ss Hh2 Hle2) as [Ha Hb]; [rewrite lt_count by exact Hlt2; lia|eapply occ_suffix; eassumption|].
    rewrite Hlen in Hb. rewrite Hlen, Hb. cbn [bind].
    assert (Hlt3 : Forall (fun q => ltp q (ti, S ss)) (g2 ++ [(ti, ss)])).
    { apply Forall_app. split; [eapply Forall_impl; [|exact Hle2]; intros q; apply ltp_next|]. constructor; [unfold ltp; cbn [fst snd]; lia|constructor]. }
    assert (Hr3 : P ++ ec = [] -> g2 ++ [(ti, ss)] = []) by (destruct P; discriminate).
    assert (Hres : exists t'', (if Nat.ltb n (length cmds)
        then add_commands fuel b (Node es2 (locs_after (length P + n) (g2 ++ [(ti, ss)]))) (skipn n cmds) ti ss (length P + n)
        else Ok (Node es2 (locs_after (length P + n) (g2 ++ [(ti, ss)])))) = Ok t'' /\ wf trs (ti, S ss) (P ++ ec) t'').
    { rewrite <- Hlen. destruct (Nat.ltb_spec n (length cmds)) as [Hlt'' | Hge].
      - eapply IH; try eassumption.
        + rewrite count_snoc, lt_count by exact Hlt2. destruct (pos_dec _ _); lia.
        + apply calm_twice; try assumption. eapply occ_suffix; eassumption.
        + intros _. eapply ends_mono; [exact Hup|exact Hends2].
      - eexists. split; [reflexivity|]. constructor; try assumption; [intros Hc; contradiction| | |eapply wf_edges_mono; eassumption].
        + apply calm_once; [exact Hle2|apply lt_count; exact Hlt2|exact Hcalm2].
        + intros _. eapply ends_mono; [exact Hup|exact Hends2]. }
    destruct Hres as (t'' & -> & Hwf''). cbn [bind]. destruct (Hset (Edge ec (Some t''))) as (es' & Hes'). rewrite Hes'. cbn [or_panic bind].
    eexists. split; [reflexivity|]. apply Hnode. eapply wf_edges_set; [eapply wf_edges_mono; [exact Hup|exact Hes]| |exact Hwf''|exact Hes']. discriminate.
  - (* the edge is split *)
    assert (Hsk : skipn n ec <> []) by (intros E; apply (f_equal (@length _)) in E; rewrite skipn_length in E; cbn [length] in E; lia).
    assert (Hec : ec = firstn n ec ++ skipn n ec) by (symmetry; apply firstn_skipn).
    assert (HPec : P ++ ec = (P ++ firstn n ec) ++ skipn n ec) by (rewrite <- app_assoc, <- Hec; reflexivity).
    unfold split_node. cbn [locs_of]. rewrite HPec in Hh2.
    destruct (split_locations b trs (P ++ firstn n ec) (skipn n ec) g2 Hh2) as [Ha Hb].
    rewrite <- HPec in Ha, Hb. rewrite Hlen in Ha. rewrite Ha. cbn [bind].
    destruct (IH b trs (P ++ firstn n ec) [Edge (skipn n ec) (Some (Node es2 (locs_after (length (P ++ ec)) g2)))]
      (map pos_of (locs_after (length (P ++ ec)) g2)) (skipn n cmds) ti ss tr) as (t'' & Et & Hwf''); try assumption.
    + pose proof (locs_after_ok (length (P ++ ec)) g2 (hk_sorted _ _ _ Hh2)) as Hk. apply Forall_forall. intros q Hq. apply in_map_iff in Hq.
      destruct Hq as (l & <- & Hl). apply (lk_in _ _ _ _ Hk) in Hl. rewrite Forall_forall in Hlt2. specialize (Hlt2 _ Hl). apply ltp_next, ltp_lep, Hlt2.
    + pose proof (locs_after_ok (length (P ++ ec)) g2 (hk_sorted _ _ _ Hh2)) as Hk. pose proof (lk_sub _ _ _ Hk (ti, ss)) as Hc.
      rewrite (lt_count _ _ Hlt2) in Hc. lia.
    + intros E. apply app_eq_nil in E. destruct E as [_ E]. apply (f_equal (@length _)) in E. rewrite firstn_length_le in E by lia. cbn [length] in E. lia.
    + rewrite HPec in Hel2. apply Forall_app in Hel2. tauto.
    + pose proof (locs_after_ok (length (P ++ ec)) g2 (hk_sorted _ _ _ Hh2)) as Hk. apply calm_once.
      * apply Forall_forall. intros q Hq. apply in_map_iff in Hq. destruct Hq as (l & <- & Hl). apply (lk_in _ _ _ _ Hk) in Hl.
        rewrite Forall_forall in Hlt2. apply ltp_lep, Hlt2, Hl.
      * pose proof (lk_sub _ _ _ Hk (ti, ss)) as Hc. rewrite (lt_count _ _ Hlt2) in Hc. lia.
      * rewrite HPec. apply calm_split; [exact (hk_sorted _ _ _ Hh2)|]. rewrite <- HPec. exact Hcalm2.
    + intros _. destruct Hends2 as ([j p] & Hp & (tr2 & Htr2 & Hocc) & _). cbn [fst snd] in *.
      assert (Hnd : nth_error cmds n <> nth_error ec n) by (apply shared_len_differs; fold n; lia).
      destruct (nth_error ec n) as [x|] eqn:Ex; [|apply nth_error_None in Ex; lia].
      assert (Hfx : follows trs (P ++ firstn n ec) (j, p) = Some x).
      { rewrite (follows_at _ _ _ _ _ Htr2), Hlen. apply occurs_nth in Hocc. destruct Hocc as [_ Hocc].
        rewrite Hocc by (rewrite app_length; lia). rewrite nth_error_app2 by lia. replace (length P + n - length P)%nat with n by lia. rewrite Ex.
        rewrite Forall_forall in Hecel. rewrite Hecel by (eapply nth_error_In; exact Ex). reflexivity. }
      exists (j, p). split; [eapply ltp_lep_trans; [exact Hp|exact Hup]|]. split.
      * exists tr2. split; [exact Htr2|]. destruct Hocc as (pre & post & E & Hpre). exists pre, (skipn n ec ++ post). split; [|exact Hpre].
        rewrite E, HPec, <- !app_assoc. reflexivity.
      * right. exists (ti, ss). split; [unfold ltp; cbn [fst snd]; lia|]. split; [eapply occ_suffix; eassumption|]. rewrite Hfx, (follows_at _ _ _ _ _ Htr).
        rewrite <- nth_error_skipped, Hrest, nth_error_app2, Nat.sub_diag by lia. rewrite <- (firstn_skipn n cmds), nth_error_app2 in Hnd by (rewrite firstn_length; lia).
        rewrite firstn_length_le, Nat.sub_diag in Hnd by lia. destruct (nth_error (skipn n cmds) 0) as [y|]; [|discriminate]. destruct (call_loop_eligible y); congruence.
    + constructor; [exact Hsk| |constructor]. rewrite <- HPec. exact Hwt.
    + rewrite Hlen in Et. rewrite Et. cbn [bind].
      assert (Hfe : firstn n cmds = firstn n ec) by exact Hs1. rewrite Hfe.
      destruct (Hset (Edge (firstn n ec) (Some t''))) as (es' & Hes'). rewrite Hes'. cbn [or_panic bind].
      eexists. split; [reflexivity|]. apply Hnode. eapply wf_edges_set; [eapply wf_edges_mono; [exact Hup|exact Hes]| |exact Hwf''|exact Hes'].
      intros E. apply (f_equal (@length _)) in E. rewrite firstn_length_le in E by lia. cbn [length] in E. lia.
Qed.
