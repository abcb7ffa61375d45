(** SavingProofs.v: the size of optimised songs (C53). *)
From Coq Require Import Sorted Arith.
From Verif Require Import Base ProofLib Command Track SeqTree Song SpecLoop SpecSaving TreeProofs TreeProofs2 SongProofs OptProofs OptExpand.
Open Scope list_scope.

(** [w] commands really disappear at each location. *)
Definition weight (w : location -> nat) (ls : list location) : nat := list_sum (map (fun l => w l - 1)%nat ls).
Fixpoint weighed (tr : track) (n : nat) (w : location -> nat) (ls : list location) : Prop :=
  match ls with
  | [] => True
  | l :: ls' => (1 <= w l <= n * Z.to_nat (repeat_count l))%nat /\ (cmd_idx l + w l <= length tr)%nat /\ weighed tr n w ls'
  end.
Lemma rewritten_weight tr n new w : (1 <= n)%nat -> forall ls from, chain tr n from ls -> weighed tr n w ls -> (from <= length tr \/ ls = [])%nat ->
  (length (rewritten tr n new from ls) + weight w ls <= length tr - from)%nat.
Proof.
  intros Hn. induction ls as [|l ls IH]; intros from Hc Hw Hf; cbn [rewritten].
  - rewrite skipn_length. unfold weight. cbn. lia.
  - cbn [chain] in Hc. destruct Hc as (H1 & H2 & H3 & H4). cbn [weighed] in Hw. destruct Hw as (W1 & W2 & W3).
    rewrite app_length, firstn_length_le by (rewrite skipn_length; lia). cbn [length].
    assert (Hl : (loc_end l n <= length tr \/ ls = [])%nat) by (destruct ls as [|l' ls]; [right; reflexivity|left; cbn [chain] in H4; lia]).
    specialize (IH (loc_end l n) H4 W3 Hl). unfold weight in *. cbn [map list_sum fold_right]. fold (list_sum (map (fun l => w l - 1)%nat ls)). unfold loc_end in *. lia.
Qed.
Lemma rewritten_exact tr n new : (1 <= n)%nat -> forall ls from, chain tr n from ls -> Forall (fun l => (loc_end l n <= length tr)%nat) ls -> (from <= length tr)%nat ->
  (length (rewritten tr n new from ls) + weight (fun l => n * Z.to_nat (repeat_count l))%nat ls = length tr - from)%nat.
Proof.
  intros Hn. induction ls as [|l ls IH]; intros from Hc Hw Hf; cbn [rewritten].
  - rewrite skipn_length. unfold weight. cbn. lia.
  - cbn [chain] in Hc. destruct Hc as (H1 & H2 & H3 & H4). inversion Hw as [|? ? W1 W2]; subst.
    rewrite app_length, firstn_length_le by (rewrite skipn_length; lia). cbn [length].
    specialize (IH (loc_end l n) H4 W2 W1). unfold weight in *. cbn [map list_sum fold_right]. fold (list_sum (map (fun l => n * Z.to_nat (repeat_count l) - 1)%nat ls)).
    assert (1 <= n * Z.to_nat (repeat_count l))%nat by nia. unfold loc_end in *. lia.
Qed.

(** Summing over the tracks is summing over the locations. *)
Lemma weight_cons w l ls : weight w (l :: ls) = (w l - 1 + weight w ls)%nat. Proof. reflexivity. Qed.
Lemma sum_seq_pick (k v : nat) (f : nat -> nat) : forall n a, (a <= k < a + n)%nat ->
  list_sum (map (fun i => (if Nat.eqb k i then v else 0) + f i)%nat (seq a n)) = (v + list_sum (map f (seq a n)))%nat.
Proof.
  induction n as [|n IH]; intros a H; [lia|]. cbn [seq map list_sum fold_right]. fold (list_sum (map (fun i => (if Nat.eqb k i then v else 0) + f i)%nat (seq (S a) n))). fold (list_sum (map f (seq (S a) n))).
  destruct (Nat.eqb_spec k a) as [->|Hk].
  - assert (Hrest : map (fun i => (if Nat.eqb a i then v else 0) + f i)%nat (seq (S a) n) = map f (seq (S a) n)).
    { apply map_ext_in. intros i Hi. apply in_seq in Hi. destruct (Nat.eqb_spec a i); [lia|reflexivity]. }
    rewrite Hrest. lia.
  - rewrite IH by lia. lia.
Qed.
Lemma weight_tracks w n ls : Forall (fun l => (track_idx l < n)%nat) ls ->
  list_sum (map (fun i => weight w (filter (fun l => Nat.eqb (track_idx l) i) ls)) (seq 0 n)) = weight w ls.
Proof.
  induction 1 as [|l ls Hl H IH].
  - cbn [filter]. unfold weight. cbn. induction (seq 0 n); [reflexivity|]. cbn. assumption.
  - rewrite weight_cons, <- IH. rewrite <- (sum_seq_pick (track_idx l) (w l - 1) _ n 0) by lia. f_equal. apply map_ext_in. intros i _.
    cbn [filter]. destruct (Nat.eqb (track_idx l) i); [rewrite weight_cons|]; lia.
Qed.
Lemma sum_by_track (f : nat -> nat) : forall (a b : list track) k, length a = length b ->
  (forall i x y, nth_error a i = Some x -> nth_error b i = Some y -> (length x + f (k + i) <= length y)%nat) ->
  (commands_in a + list_sum (map f (seq k (length b))) <= commands_in b)%nat.
Proof.
  induction a as [|x a IH]; intros [|y b] k Hl H; try discriminate; [reflexivity|]. unfold commands_in in *. cbn [map seq length list_sum fold_right].
  pose proof (H 0%nat x y eq_refl eq_refl) as H0. rewrite Nat.add_0_r in H0.
  assert (IHa := IH b (S k) ltac:(cbn in Hl; lia) ltac:(intros i u v Hu Hv; pose proof (H (S i) u v Hu Hv) as H1; replace (k + S i)%nat with (S k + i)%nat in H1 by lia; exact H1)).
  unfold list_sum in *. lia.
Qed.
Lemma sum_by_track_eq (f : nat -> nat) : forall (a b : list track) k, length a = length b ->
  (forall i x y, nth_error a i = Some x -> nth_error b i = Some y -> (length x + f (k + i) = length y)%nat) ->
  (commands_in a + list_sum (map f (seq k (length b))) = commands_in b)%nat.
Proof.
  induction a as [|x a IH]; intros [|y b] k Hl H; try discriminate; [reflexivity|]. unfold commands_in in *. cbn [map seq length list_sum fold_right].
  pose proof (H 0%nat x y eq_refl eq_refl) as H0. rewrite Nat.add_0_r in H0.
  assert (IHa := IH b (S k) ltac:(cbn in Hl; lia) ltac:(intros i u v Hu Hv; pose proof (H (S i) u v Hu Hv) as H1; replace (k + S i)%nat with (S k + i)%nat in H1 by lia; exact H1)).
  unfold list_sum in *. lia.
Qed.
Lemma commands_app a b : commands_in (a ++ b) = (commands_in a + commands_in b)%nat.
Proof. unfold commands_in. rewrite map_app, list_sum_app. reflexivity. Qed.
Lemma step_split n trs s trs' : step n trs s trs' ->
  commands_in trs = (commands_in (firstn n trs) + commands_in (skipn n trs))%nat /\
  commands_in trs' = (commands_in (firstn n trs') + commands_in (skipn n trs) + length (seq_cmds s))%nat.
Proof.
  intros Hs. split; [rewrite <- commands_app, firstn_skipn; reflexivity|].
  rewrite <- (firstn_skipn n trs') at 1. rewrite commands_app, (st_rest _ _ _ _ Hs), commands_app. unfold commands_in at 3. cbn. lia.
Qed.
Lemma locs_below n trs s trs' : step n trs s trs' -> Forall (fun l => (track_idx l < n)%nat) (seq_locs s).
Proof.
  intros Hs. pose proof (cd_occ _ _ (proj1 (st_chosen _ _ _ _ Hs))) as Ho. eapply Forall_impl; [|exact Ho]. cbn beta. intros l (tr & Htr & _).
  apply nth_error_lt in Htr. unfold pos_of in Htr. cbn [fst] in Htr. rewrite firstn_length in Htr. lia.
Qed.

(** What a location is sure to remove. *)
Definition sure (n : nat) (l : location) : nat := if repeat_count l =? 1 then n else (2 * n)%nat.
Lemma sure_total n ls : Forall (fun l => 1 <= repeat_count l <= 4) ls -> (4 <= n)%nat -> 2 <= zsum (map repeat_count ls) -> (n + 2 <= weight (sure n) ls)%nat.
Proof.
  intros Hr Hn Ht.
  assert (H : forall ls, Forall (fun l => 1 <= repeat_count l <= 4) ls -> ((n - 1) * length ls <= weight (sure n) ls)%nat /\ (Z.of_nat (length ls) < zsum (map repeat_count ls) -> (2 * n - 1 <= weight (sure n) ls)%nat)).
  { clear - Hn. induction 1 as [|l ls Hl H (IH1 & IH2)]; [split; [cbn; lia|cbn; lia]|]. rewrite weight_cons. cbn [map zsum fold_right length]. fold (zsum (map repeat_count ls)).
    unfold sure at 1 3. destruct (Z.eqb_spec (repeat_count l) 1) as [He|He]; split; try nia. }
  destruct (H ls Hr) as [H1 H2]. destruct (Z_lt_le_dec (Z.of_nat (length ls)) (zsum (map repeat_count ls))) as [Hc|Hc]; [specialize (H2 Hc); lia|].
  assert (2 <= length ls)%nat by lia. nia.
Qed.
Lemma step_saves n trs s trs' : step n trs s trs' -> (commands_in trs' + 2 <= commands_in trs)%nat.
Proof.
  intros Hs. destruct (step_split _ _ _ _ Hs) as [E1 E2]. pose proof (locs_below _ _ _ _ Hs) as Hb. destruct Hs as [Hn (Hc & Hc4 & Hct) Hl Ht Hr Hlen].
  pose proof (sure_total (length (seq_cmds s)) (seq_locs s) (cd_count _ _ Hc) ltac:(lia) ltac:(unfold total in Hct; lia)) as Hsure.
  assert (Hmain : (commands_in (firstn n trs') + weight (sure (length (seq_cmds s))) (seq_locs s) <= commands_in (firstn n trs))%nat).
  { rewrite <- (weight_tracks _ n _ Hb).
    pose proof (sum_by_track (fun i => weight (sure (length (seq_cmds s))) (locs_in i s)) (firstn n trs') (firstn n trs) 0) as Hsum.
    rewrite (firstn_length_le trs Hn) in Hsum. apply Hsum; [exact Hl|]. clear Hsum.
    intros i x y Hx Hy. cbn [Nat.add]. assert (Hi : (i < n)%nat) by (apply nth_error_lt in Hx; lia). pose proof (chain_locs _ _ _ _ Hc Hy) as Hch.
    pose proof Hy as Hy'. rewrite nth_error_firstn in Hx, Hy by exact Hi. rewrite (Ht i y Hi Hy) in Hx. injection Hx as <-.
    pose proof (rewritten_weight y (length (seq_cmds s)) (length trs) (sure (length (seq_cmds s))) ltac:(lia) (locs_in i s) 0 Hch) as Hw.
    assert (Hwd : weighed y (length (seq_cmds s)) (sure (length (seq_cmds s))) (locs_in i s)).
    { assert (Hall : Forall (fun l => track_idx l = i /\ In l (seq_locs s)) (locs_in i s)).
      { apply Forall_forall. intros l Hl'. apply filter_In in Hl'. destruct Hl' as [Hin He]. apply Nat.eqb_eq in He. auto. }
      clear - Hall Hc Hy' Hc4. induction (locs_in i s) as [|l ls IH]; cbn [weighed]; [exact I|]. inversion Hall as [|? ? [Hi Hin] Hall']; subst.
      pose proof (cd_count _ _ Hc) as Hk. pose proof (cd_occ _ _ Hc) as Ho. pose proof (cd_two _ _ Hc) as H2. rewrite Forall_forall in Hk, Ho, H2.
      specialize (Hk l Hin). specialize (Ho l Hin). specialize (H2 l Hin). unfold sure at 1 2 3. destruct (Z.eqb_spec (repeat_count l) 1) as [He|He].
      - split; [rewrite He; change (Z.to_nat 1) with 1%nat; lia|]. split; [|apply IH; exact Hall'].
        eapply occ_bound; [exact Hy'|reflexivity|exact Ho].
      - specialize (H2 He). split; [nia|]. split; [|apply IH; exact Hall'].
        destruct H2 as (tr' & Htr' & pre & post & E & Hp). unfold shift, pos_of in *. cbn [fst snd] in *. rewrite Hy' in Htr'. injection Htr' as <-. rewrite E, !app_length. lia. }
    specialize (Hw Hwd ltac:(left; lia)). lia. }
  lia.
Qed.
Lemma step_exact n trs s trs' : step n trs s trs' -> Forall (genuine (firstn n trs) (seq_cmds s)) (seq_locs s) ->
  Z.of_nat (commands_in trs') + saving s = Z.of_nat (commands_in trs).
Proof.
  intros Hs Hg. destruct (step_split _ _ _ _ Hs) as [E1 E2]. pose proof (locs_below _ _ _ _ Hs) as Hb. destruct Hs as [Hn (Hc & Hc4 & Hct) Hl Ht Hr Hlen].
  set (m := length (seq_cmds s)) in *.
  assert (Hmain : (commands_in (firstn n trs') + weight (fun l => m * Z.to_nat (repeat_count l))%nat (seq_locs s) = commands_in (firstn n trs))%nat).
  { rewrite <- (weight_tracks _ n _ Hb).
    pose proof (sum_by_track_eq (fun i => weight (fun l => m * Z.to_nat (repeat_count l))%nat (locs_in i s)) (firstn n trs') (firstn n trs) 0) as Hsum.
    rewrite (firstn_length_le trs Hn) in Hsum. apply Hsum; [exact Hl|]. clear Hsum.
    intros i x y Hx Hy. cbn [Nat.add]. assert (Hi : (i < n)%nat) by (apply nth_error_lt in Hx; lia). pose proof (chain_locs _ _ _ _ Hc Hy) as Hch.
    pose proof Hy as Hy'. rewrite nth_error_firstn in Hx, Hy by exact Hi. rewrite (Ht i y Hi Hy) in Hx. injection Hx as <-.
    rewrite (rewritten_exact y m (length trs) ltac:(lia) (locs_in i s) 0 Hch); [lia| |lia].
    apply Forall_forall. intros l Hl'. apply filter_In in Hl'. destruct Hl' as [Hin He]. apply Nat.eqb_eq in He.
    rewrite Forall_forall in Hg. destruct (Hg l Hin) as (tr' & Htr' & pre & post & E & Hp). rewrite He, Hy' in Htr'. injection Htr' as <-.
    unfold loc_end. rewrite E, !app_length, copies_length. fold m. lia. }
  assert (Hw : Z.of_nat (weight (fun l => m * Z.to_nat (repeat_count l))%nat (seq_locs s)) = zsum (map repeat_count (seq_locs s)) * Z.of_nat m - Z.of_nat (length (seq_locs s))).
  { clear - Hc Hc4. pose proof (cd_count _ _ Hc) as Hk. induction Hk as [|l ls Hl H IH]; [reflexivity|]. rewrite weight_cons. cbn [map zsum fold_right length]. fold (zsum (map repeat_count ls)). nia. }
  unfold saving. fold m. lia.
Qed.

(** ** The whole run. *)
Lemma optimize_commands b n : forall fuel trs r, (n <= length trs)%nat -> optimize_fuel fuel b trs n = Ok r -> r = trs \/ (commands_in r + 2 <= commands_in trs)%nat.
Proof.
  induction fuel as [|fuel IH]; intros trs r Hn E; cbn [optimize_fuel] in E; [discriminate|].
  inv_bind E. inv_bind E. destruct a0 as [s|]; [|injection E as <-; auto].
  pose proof (best_spec _ _ _ Ha _ Ha0 s eq_refl) as Hc. destruct (extract_step trs s n Hn Hc) as (trs' & E' & Hs). rewrite E' in E. cbn [bind] in E.
  right. pose proof (step_saves _ _ _ _ Hs). destruct (IH trs' r) as [->|H']; [rewrite (st_len _ _ _ _ Hs); lia|exact E|exact H|lia].
Qed.
Lemma never_longer b trs n r : (n <= length trs)%nat -> optimize_call_loops b trs n = Ok r ->
  r = trs \/ (commands_in r + 2 <= commands_in trs)%nat.
Proof. intros Hn E. eapply optimize_commands; eassumption. Qed.
Lemma extraction_saves b trs n t s : (n <= length trs)%nat -> build_tree b empty_tree (firstn n trs) 0 = Ok t -> best_sequence b t = Ok (Some s) ->
  exists trs', extract_sequence trs s n = Ok trs' /\ (commands_in trs' + 2 <= commands_in trs)%nat /\
    (Forall (genuine (firstn n trs) (seq_cmds s)) (seq_locs s) -> Z.of_nat (commands_in trs') + saving s = Z.of_nat (commands_in trs)).
Proof.
  intros Hn Et Es. pose proof (best_spec _ _ _ Et _ Es s eq_refl) as Hc. destruct (extract_step trs s n Hn Hc) as (trs' & E' & Hs).
  exists trs'. split; [exact E'|]. split; [exact (step_saves _ _ _ _ Hs)|exact (step_exact _ _ _ _ Hs)].
Qed.
