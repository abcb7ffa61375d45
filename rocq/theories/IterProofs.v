(** IterProofs.v: the stack iterator enumerates the tree in depth-first order (C54). *)
From Coq Require Import Arith.
From Verif Require Import Base ProofLib Command Track SeqTree TreeIter Song SpecLoop SpecSaving TreeProofs TreeProofs2 SongProofs OptProofs SavingProofs.
Open Scope list_scope.

Fixpoint seq_edges (b : build) (prefix : list pcmd) (es : list edge) : outcome (list sequence) :=
  match es with
  | [] => Ok []
  | Edge ec tgt :: es' =>
      match tgt with
      | None => Panic PUnwrap
      | Some t' =>
          let cmds := prefix ++ ec in
          let* ls := consolidate_locations b (locs_of t') (length cmds) in
          let* sub := sequences b cmds t' in
          let* rest := seq_edges b prefix es' in
          Ok (mk_seq cmds ls :: sub ++ rest)
      end
  end.
Lemma sequences_edges b P t : sequences b P t = seq_edges b P (edges_of t).
Proof.
  destruct t as [es ls]. cbn [edges_of sequences]. induction es as [|[ec [t'|]] es IH]; cbn [seq_edges]; [reflexivity| |reflexivity].
  destruct (consolidate_locations _ _ _); try reflexivity. cbn [bind]. destruct (sequences _ _ _); try reflexivity. cbn [bind]. rewrite IH. reflexivity.
Qed.
Fixpoint count_edges (es : list edge) : nat :=
  match es with
  | [] => O
  | Edge _ tgt :: es' => S (match tgt with Some t' => edge_count t' | None => O end + count_edges es')
  end.
Lemma edge_count_edges t : edge_count t = count_edges (edges_of t).
Proof. destruct t as [es ls]. cbn [edges_of edge_count]. induction es as [|[ec [t'|]] es IH]; cbn [count_edges]; [reflexivity| |]; f_equal; f_equal; exact IH. Qed.

(** What a stack still has to yield, and how many edges it still has to pass. *)
Definition left_of (it : stack_item) : list edge := skipn (si_child it) (edges_of (si_node it)).
Fixpoint pending (b : build) (stack : list stack_item) : outcome (list sequence) :=
  match stack with
  | [] => Ok []
  | it :: rest =>
      let* a := seq_edges b (si_cmds it) (left_of it) in
      let* r := pending b rest in Ok (a ++ r)
  end.
Definition todo (stack : list stack_item) : nat := list_sum (map (fun it => count_edges (left_of it)) stack).
Definition inside (it : stack_item) : Prop := (si_child it <= length (edges_of (si_node it)))%nat.

Lemma pop_spec b : forall rest top, Forall inside (top :: rest) ->
  match pop_finished top rest with
  | None => pending b (top :: rest) = Ok []
  | Some (t, r) => pending b (top :: rest) = pending b (t :: r) /\ Forall inside (t :: r) /\ todo (top :: rest) = todo (t :: r) /\ (si_child t < length (edges_of (si_node t)))%nat
  end.
Proof.
  induction rest as [|it rest IH]; intros top Hin; inversion Hin as [|? ? H1 H2]; subst; cbn [pop_finished].
  - destruct (Nat.eqb_spec (si_child top) (length (edges_of (si_node top)))) as [E|E].
    + cbn [pending]. unfold left_of. rewrite E, skipn_all. reflexivity.
    + unfold inside in H1. repeat split; try assumption; lia.
  - destruct (Nat.eqb_spec (si_child top) (length (edges_of (si_node top)))) as [E|E].
    + assert (Hl : left_of top = []) by (unfold left_of; rewrite E; apply skipn_all).
      specialize (IH it H2). destruct (pop_finished it rest) as [[t r]|].
      * destruct IH as (I1 & I2 & I3 & I4). split; [|split; [exact I2|split; [|exact I4]]].
        -- rewrite <- I1. cbn [pending]. rewrite Hl. cbn [seq_edges bind app].
           destruct (seq_edges b (si_cmds it) (left_of it)); cbn [bind]; try reflexivity. destruct (pending b rest); reflexivity.
        -- rewrite <- I3. unfold todo. cbn [map list_sum fold_right]. rewrite Hl. reflexivity.
      * cbn [pending] in IH |- *. rewrite Hl. cbn [seq_edges bind]. rewrite IH. reflexivity.
    + unfold inside in H1. split; [reflexivity|]. split; [exact Hin|]. split; [reflexivity|lia].
Qed.
Lemma skipn_nth {A} (l : list A) k : (k < length l)%nat -> exists x, nth_error l k = Some x /\ skipn k l = x :: skipn (S k) l.
Proof. revert l. induction k as [|k IH]; intros [|x l] H; cbn in H; try lia; [eexists; split; reflexivity|]. apply IH. lia. Qed.
Lemma next_spec b stack ss : Forall inside stack -> pending b stack = Ok ss ->
  (ss = [] /\ exists st, iter_next b stack = Ok (None, st)) \/
  exists s ss' stack', ss = s :: ss' /\ iter_next b stack = Ok (Some s, stack') /\ Forall inside stack' /\ pending b stack' = Ok ss' /\ (todo stack' < todo stack)%nat.
Proof.
  intros Hin E. destruct stack as [|top rest]; [left; cbn in E; injection E as <-; split; [reflexivity|eexists; reflexivity]|].
  pose proof (pop_spec b rest top Hin) as Hp. cbn [iter_next]. destruct (pop_finished top rest) as [[t r]|].
  - destruct Hp as (P1 & P2 & P3 & P4). right. rewrite P1 in E. rewrite P3. clear P1 P3 Hin.
    destruct (skipn_nth _ _ P4) as ([ec tgt] & Hn & Hs). rewrite Hn. cbn [or_panic bind ecmds_of target_of].
    cbn [pending] in E. unfold left_of in E. rewrite Hs in E. cbn [seq_edges] in E. destruct tgt as [t'|]; [|discriminate]. inv_bind E. inv_bind E. inv_bind Ha. inv_bind Ha. inv_bind Ha. injection Ha as <-. injection E as <-.
    cbn [or_panic bind]. rewrite Ha1. cbn [bind].
    eexists _, _, _. split; [reflexivity|]. split; [reflexivity|].
    inversion P2 as [|? ? Q1 Q2]; subst. split; [|split].
    + constructor; [unfold inside; cbn; lia|]. constructor; [unfold inside; cbn [si_child si_node]; lia|exact Q2].
    + cbn [pending]. unfold left_of. cbn [si_cmds si_node si_child]. rewrite skipn_O, <- sequences_edges, Ha2. cbn [bind]. rewrite Ha3. cbn [bind]. rewrite Ha0. cbn [bind]. rewrite app_assoc. reflexivity.
    + unfold todo. cbn [map list_sum fold_right]. unfold left_of. cbn [si_cmds si_node si_child]. rewrite skipn_O, Hs. cbn [count_edges]. rewrite edge_count_edges. lia.
  - left. rewrite Hp in E. injection E as <-. split; [reflexivity|eexists; reflexivity].
Qed.
Lemma collect_spec b : forall fuel stack ss, Forall inside stack -> pending b stack = Ok ss -> (todo stack < fuel)%nat -> iter_collect fuel b stack = Ok ss.
Proof.
  induction fuel as [|fuel IH]; intros stack ss Hin E Hf; [lia|]. cbn [iter_collect].
  destruct (next_spec b stack ss Hin E) as [(-> & st & ->)|(s & ss' & stack' & -> & -> & H1 & H2 & H3)]; cbn [bind]; [reflexivity|].
  rewrite (IH stack' ss' H1 H2 ltac:(lia)). reflexivity.
Qed.
Lemma best_of_consider b best s ss : best_of b best (s :: ss) = (let* best' := consider b best s in best_of b best' ss).
Proof.
  cbn [best_of]. unfold consider. destruct (keep_sequence b s) as [[|]| | |]; cbn [bind]; try reflexivity.
  destruct (score b s); cbn [bind]; try reflexivity. destruct best as [[s1 sc1]|]; [destruct (_ <=? _)|]; reflexivity.
Qed.
Lemma iter_best_spec b : forall fuel stack ss best, Forall inside stack -> pending b stack = Ok ss -> (todo stack < fuel)%nat ->
  iter_best fuel b stack best = best_of b best ss.
Proof.
  induction fuel as [|fuel IH]; intros stack ss best Hin E Hf; [lia|]. cbn [iter_best].
  destruct (next_spec b stack ss Hin E) as [(-> & st & ->)|(s & ss' & stack' & -> & -> & H1 & H2 & H3)]; cbn [bind]; [reflexivity|].
  rewrite best_of_consider. destruct (consider b best s); cbn [bind]; try reflexivity. apply IH; [exact H1|exact H2|lia].
Qed.
Lemma start_stack b t ss : sequences b [] t = Ok ss -> Forall inside [mk_item t [] 0] /\ pending b [mk_item t [] 0] = Ok ss /\ todo [mk_item t [] 0] = edge_count t.
Proof.
  intros E. split; [constructor; [unfold inside; cbn; lia|constructor]|]. cbn [pending]. unfold todo, left_of. cbn [si_cmds si_node si_child map list_sum fold_right]. rewrite skipn_O.
  rewrite <- sequences_edges, E, edge_count_edges. cbn [bind]. rewrite app_nil_r. split; [reflexivity|lia].
Qed.
(** The recursive search of SeqTree.v is the iterator's, for every tree the optimiser builds. *)
Lemma iter_agrees b trs t fuel : build_tree b empty_tree trs 0 = Ok t -> (edge_count t < fuel)%nat ->
  best_sequence_iter fuel b t = best_sequence b t /\ exists ss, sequences b [] t = Ok ss /\ iter_collect fuel b [mk_item t [] 0] = Ok ss.
Proof.
  intros Et Hf. destruct (build_tree_all b trs) as (t' & Et' & Hw). rewrite Et in Et'. injection Et' as <-.
  destruct (sequences_ok b trs _ t Hw) as (ss & Es & _). destruct (start_stack b t ss Es) as (H1 & H2 & H3).
  split; [|exists ss; split; [exact Es|apply collect_spec; [exact H1|exact H2|lia]]].
  unfold best_sequence_iter, best_sequence. rewrite Es. cbn [bind]. rewrite (iter_best_spec b fuel _ ss None H1 H2) by lia. reflexivity.
Qed.
(** Exactly the nodes of the tree are visited. *)
Lemma tree_ind' (Q : tree -> Prop) : (forall es ls, Forall (fun e => forall t, target_of e = Some t -> Q t) es -> Q (Node es ls)) -> forall t, Q t.
Proof.
  intros H. fix IH 1. intros [es ls]. apply H. induction es as [|[ec [t'|]] es IHes]; constructor; try exact IHes.
  - intros t E. cbn in E. injection E as <-. apply IH.
  - intros t E. discriminate.
Qed.
Lemma seq_edges_in b P es ss : seq_edges b P es = Ok ss -> forall s, In s ss <->
  exists ec t', In (Edge ec (Some t')) es /\ ((seq_cmds s = P ++ ec /\ consolidate_locations b (locs_of t') (length (P ++ ec)) = Ok (seq_locs s)) \/
    exists sub, sequences b (P ++ ec) t' = Ok sub /\ In s sub).
Proof.
  revert ss. induction es as [|[ec tgt] es IH]; intros ss E s; cbn [seq_edges] in E.
  - injection E as <-. split; [intros []|intros (ec & t' & [] & _)].
  - destruct tgt as [t'|]; [|discriminate]. inv_bind E. inv_bind E. inv_bind E. injection E as <-. cbn [In]. rewrite in_app_iff, (IH _ Ha1). split.
    + intros [<-|[H|(ec' & t2 & Hin & Hx)]].
      * exists ec, t'. split; [left; reflexivity|]. left. cbn. auto.
      * exists ec, t'. split; [left; reflexivity|]. right. eauto.
      * exists ec', t2. split; [right; exact Hin|exact Hx].
    + intros (ec' & t2 & [E2|Hin] & Hx).
      * injection E2 as <- <-. destruct Hx as [[Hx1 Hx2]|(sub & Hs & Hx)].
        -- left. rewrite Ha in Hx2. injection Hx2 as Hx2. destruct s as [sc sl]. cbn in *. congruence.
        -- right. left. congruence.
      * right. right. eauto.
Qed.
Lemma node_at_cons t P t' : node_at t P t' <-> exists ec t1, In (Edge ec (Some t1)) (edges_of t) /\ ((P = ec /\ t' = t1) \/ exists Q, P = ec ++ Q /\ node_at t1 Q t').
Proof.
  split.
  - intros H. destruct H as [t ec t' H|t ec t1 Q t' H H']; [exists ec, t'|exists ec, t1]; split; try exact H; [left; auto|right; eauto].
  - intros (ec & t1 & H & [[-> ->]|(Q & -> & H')]); [apply na_here; exact H|eapply na_below; eassumption].
Qed.
Lemma sequences_nodes b t : forall P ss, sequences b P t = Ok ss -> forall s, In s ss <->
  exists Q t', node_at t Q t' /\ seq_cmds s = P ++ Q /\ consolidate_locations b (locs_of t') (length (P ++ Q)) = Ok (seq_locs s).
Proof.
  induction t as [es ls IH] using tree_ind'. intros P ss E s. rewrite sequences_edges in E. cbn [edges_of] in E. rewrite (seq_edges_in _ _ _ _ E). split.
  - intros (ec & t' & Hin & [[H1 H2]|(sub & Hs & Hx)]).
    + exists ec, t'. split; [apply na_here; exact Hin|auto].
    + rewrite Forall_forall in IH. rewrite (IH _ Hin t' eq_refl _ _ Hs) in Hx. destruct Hx as (Q & t2 & Hn & H1 & H2). exists (ec ++ Q), t2. split; [eapply na_below; [exact Hin|exact Hn]|]. rewrite !app_assoc. auto.
  - intros (Q & t' & Hn & H1 & H2). apply node_at_cons in Hn. destruct Hn as (ec & t1 & Hin & [[-> ->]|(Q' & -> & Hn)]); exists ec, t1; (split; [exact Hin|]).
    + left. auto.
    + right. assert (Hsub : exists sub, sequences b (P ++ ec) t1 = Ok sub).
      { clear - E Hin. revert ss E. cbn [edges_of] in Hin. induction es as [|[ec' tgt] es IH]; intros ss E; [destruct Hin|]. cbn [seq_edges] in E. destruct tgt as [t2|]; [|discriminate].
        inv_bind E. inv_bind E. inv_bind E. destruct Hin as [E'|Hin]; [injection E' as -> ->; eauto|]. eapply IH; [exact Hin|exact Ha1]. }
      destruct Hsub as (sub & Hsub). exists sub. split; [exact Hsub|]. rewrite Forall_forall in IH. apply (IH _ Hin t1 eq_refl _ _ Hsub). exists Q', t'. rewrite !app_assoc in *. auto.
Qed.
Lemma search_exhaustive b trs t fuel : build_tree b empty_tree trs 0 = Ok t -> (edge_count t < fuel)%nat ->
  exists ss, iter_collect fuel b [mk_item t [] 0] = Ok ss /\
    forall s, In s ss <-> exists t', node_at t (seq_cmds s) t' /\ consolidate_locations b (locs_of t') (length (seq_cmds s)) = Ok (seq_locs s).
Proof.
  intros Et Hf. destruct (iter_agrees b trs t fuel Et Hf) as (_ & ss & Es & Ec). exists ss. split; [exact Ec|]. intros s. rewrite (sequences_nodes b t [] ss Es s). cbn [app]. split.
  - intros (Q & t' & H1 & <- & H3). eauto.
  - intros (t' & H1 & H3). eauto.
Qed.

(** ** The choice. *)
Lemma total_fold_exact b ls : Forall (fun l => 1 <= repeat_count l <= 4) ls -> forall acc, 0 <= acc -> acc + zsum (map repeat_count ls) < 256 ->
  ofold (fun acc l => arith b 8 (acc + repeat_count l)) ls acc = Ok (acc + zsum (map repeat_count ls)).
Proof.
  induction 1 as [|l ls Hl H IH]; intros acc Ha Hs; cbn [ofold map zsum fold_right] in *; [f_equal; lia|]. fold (zsum (map repeat_count ls)) in *.
  assert (Hp : 0 <= zsum (map repeat_count ls)) by (pose proof (total_bounds ls H); unfold total in *; lia).
  rewrite arith_exact by (change (2 ^ 8) with 256; lia). cbn [bind]. rewrite IH by lia. f_equal. lia.
Qed.
Lemma kept_exact b trs s : candidate trs s -> worthwhile s -> zsum (map repeat_count (seq_locs s)) < 256 -> keep_sequence b s = Ok true.
Proof.
  intros Hc [H1 H2] H3. unfold keep_sequence. destruct (Nat.ltb_spec 3 (length (seq_cmds s))); [|lia]. unfold total_repeats_u8.
  rewrite (total_fold_exact b _ (cd_count _ _ Hc) 0) by lia. cbn [bind]. f_equal. lia.
Qed.
Lemma kept_score b trs s k : candidate trs s -> keep_sequence b s = Ok true -> score b s = Ok k -> worthwhile s /\ (saving s < 2 ^ 64 -> k = saving s).
Proof.
  intros Hc Hk Hs. destruct (kept_spec _ _ _ Hc Hk) as [H1 H2]. unfold total in *. split; [split; lia|]. intros Hb.
  pose proof (score_pos _ _ Hc H1 H2) as Hp. unfold total in Hp. unfold score in Hs. unfold saving in *. rewrite arith_exact in Hs; [injection Hs as <-; lia|lia].
Qed.
(** Sizes that fit the address space. *)
Definition in_memory (s : sequence) : Prop := worthwhile s -> saving s < 2 ^ 64.
Lemma best_of_max b trs ss : Forall (candidate trs) ss -> Forall in_memory ss -> forall o r,
  (forall s sc, o = Some (s, sc) -> sc = saving s) -> best_of b o ss = Ok r ->
  (forall s sc, r = Some (s, sc) -> sc = saving s /\ (In s ss \/ o = Some (s, sc))) /\
  (forall s0 sc0, o = Some (s0, sc0) -> exists s sc, r = Some (s, sc) /\ sc0 <= sc) /\
  (forall s', In s' ss -> keep_sequence b s' = Ok true -> exists s sc, r = Some (s, sc) /\ saving s' <= saving s).
Proof.
  intros Hc. induction Hc as [|s0 ss Hs Hc IH]; intros Hm o r Ho E.
  - cbn in E. injection E as <-. split; [|split].
    + intros s sc E. split; [eapply Ho; exact E|right; exact E].
    + intros s1 sc1 E. rewrite E. eexists _, _. split; [reflexivity|lia].
    + intros s' [].
  - inversion Hm as [|? ? Hm1 Hm2]; subst. specialize (IH Hm2). rewrite best_of_consider in E. inv_bind E.
    assert (Hcons : (forall s sc, a = Some (s, sc) -> sc = saving s /\ (s = s0 \/ o = Some (s, sc))) /\
      (forall s1 sc1, o = Some (s1, sc1) -> exists s sc, a = Some (s, sc) /\ sc1 <= sc) /\
      (keep_sequence b s0 = Ok true -> exists s sc, a = Some (s, sc) /\ saving s0 <= sc)).
    { unfold consider in Ha. inv_bind Ha. destruct a0.
      - inv_bind Ha. destruct (kept_score _ _ _ _ Hs Ha0 Ha1) as [Hwo Hk]. specialize (Hk (Hm1 Hwo)). subst a0.
        destruct o as [[s1 sc1]|]; [destruct (Z.leb_spec sc1 (saving s0)) as [Hl|Hl]|]; injection Ha as <-; (split; [|split]).
        + intros s sc E1. injection E1 as <- <-. auto.
        + intros s2 sc2 E1. injection E1 as <- <-. eauto.
        + intros _. eexists _, _. split; [reflexivity|lia].
        + intros s sc E1. split; [eapply Ho; exact E1|right; exact E1].
        + intros s2 sc2 E1. injection E1 as <- <-. eexists _, _. split; [reflexivity|lia].
        + intros _. eexists _, _. split; [reflexivity|lia].
        + intros s sc E1. injection E1 as <- <-. auto.
        + intros s2 sc2 E1. discriminate.
        + intros _. eexists _, _. split; [reflexivity|lia].
      - injection Ha as <-. split; [|split].
        + intros s sc E1. split; [eapply Ho; exact E1|right; exact E1].
        + intros s2 sc2 E1. rewrite E1. eexists _, _. split; [reflexivity|lia].
        + rewrite Ha0. discriminate. }
    destruct Hcons as (C1 & C2 & C3).
    destruct (IH a r (fun s sc Hx => proj1 (C1 s sc Hx)) E) as (I1 & I2 & I3). split; [|split].
    + intros s sc Er. destruct (I1 s sc Er) as [J1 [J2|J2]]; split; try exact J1; [left; right; exact J2|].
      destruct (C1 s sc J2) as [_ [->|J3]]; [left; left; reflexivity|right; exact J3].
    + intros s1 sc1 E1. destruct (C2 s1 sc1 E1) as (s & sc & E2 & H2). destruct (I2 s sc E2) as (s3 & sc3 & E3 & H3). exists s3, sc3. split; [exact E3|lia].
    + intros s' [<-|Hin] Hk; [|apply I3; assumption]. destruct (C3 Hk) as (s & sc & E2 & H2). destruct (I2 s sc E2) as (s3 & sc3 & E3 & H3). exists s3, sc3. split; [exact E3|].
      destruct (I1 s3 sc3 E3) as [-> _]. lia.
Qed.
Lemma candidate_small trs s : candidate trs s -> (Z.of_nat (commands_in trs) < 2 ^ 31) -> in_memory s.
Proof.
  intros Hc Hb [H1 H2].
  assert (Hn : Forall (fun l => (track_idx l < length trs)%nat) (seq_locs s)).
  { eapply Forall_impl; [|exact (cd_occ _ _ Hc)]. cbn beta. intros l (tr & Htr & _). apply nth_error_lt in Htr. exact Htr. }
  assert (Hw : (commands_in (map (fun _ => []) trs) + weight (fun _ => 4%nat) (seq_locs s) <= commands_in trs)%nat).
  { rewrite <- (weight_tracks _ (length trs) _ Hn). apply (sum_by_track (fun i => weight (fun _ => 4%nat) (locs_in i s)) (map (fun _ => []) trs) trs 0); [apply map_length|].
    intros i x y Hx Hy. cbn [Nat.add]. rewrite nth_error_map, Hy in Hx. cbn in Hx. injection Hx as <-. cbn [length].
    pose proof (chain_locs _ _ _ _ Hc Hy) as Hch. pose proof (rewritten_weight y (length (seq_cmds s)) 0 (fun _ => 4%nat) ltac:(lia) (locs_in i s) 0 Hch) as Hr.
    assert (Hwd : weighed y (length (seq_cmds s)) (fun _ => 4%nat) (locs_in i s)).
    { clear - Hch H1. set (w := fun _ : location => 4%nat). assert (Ew : forall l, w l = 4%nat) by reflexivity. clearbody w. revert Hch. generalize 0%nat. induction (locs_in i s) as [|l ls IH]; intros k Hch; cbn [weighed chain] in *; [exact I|].
      destruct Hch as (A1 & A2 & A3 & A4). rewrite Ew. split; [split; [lia|apply (Nat.mul_le_mono 4 _ 1 _); lia]|]. split; [lia|]. eapply IH; exact A4. }
    specialize (Hr Hwd ltac:(left; lia)). lia. }
  assert (Hz : commands_in (map (fun _ => []) trs) = 0%nat) by (clear; unfold commands_in; induction trs as [|t trs IH]; [reflexivity|exact IH]). rewrite Hz in Hw.
  assert (Hw4 : weight (fun _ => 4%nat) (seq_locs s) = (3 * length (seq_locs s))%nat).
  { clear. induction (seq_locs s) as [|l ls IH]; [reflexivity|]. rewrite weight_cons, IH. cbn [length]. lia. }
  assert (Hlen : (length (seq_cmds s) <= commands_in trs)%nat).
  { destruct (seq_locs s) as [|l ls] eqn:El; [cbn in H2; lia|]. pose proof (cd_occ _ _ Hc) as Ho. rewrite El in Ho. inversion Ho as [|? ? (tr & Htr & pre & post & E & _) _]; subst.
    clear - Htr. unfold pos_of in Htr. cbn [fst] in Htr. assert (Hx : (length (seq_cmds s) <= length (pre ++ seq_cmds s ++ post))%nat) by (rewrite !app_length; lia).
    remember (pre ++ seq_cmds s ++ post) as tr. clear Heqtr. revert Htr. generalize (track_idx l). intros k. revert k. induction trs as [|t trs IH]; intros [|k] Htr; try discriminate; cbn in Htr.
    - injection Htr as ->. unfold commands_in. cbn. lia.
    - specialize (IH k Htr). unfold commands_in, list_sum in *. cbn [map fold_right]. lia. }
  assert (Hz4 : zsum (map repeat_count (seq_locs s)) <= 4 * Z.of_nat (length (seq_locs s))).
  { clear - Hc. pose proof (cd_count _ _ Hc) as Hk. induction Hk as [|l ls Hl H IH]; [cbn; lia|]. cbn [map zsum fold_right length]. fold (zsum (map repeat_count ls)). lia. }
  unfold saving. rewrite Hw4 in Hw. set (N := Z.of_nat (commands_in trs)) in *. set (L := Z.of_nat (length (seq_cmds s))) in *. set (Z1 := zsum (map repeat_count (seq_locs s))) in *.
  
  assert (HN : 0 <= N <= 2147483647) by (change (2 ^ 31) with 2147483648 in Hb; unfold N in *; lia). change (2 ^ 64) with 18446744073709551616.
  assert (HZ : 0 <= Z1 <= 4 * N) by (unfold N; lia). assert (HL : 0 <= L <= N) by (unfold L, N; lia).
  assert (Z1 * L <= (4 * N) * N) by (apply Z.mul_le_mono_nonneg; lia). assert (N * N <= 2147483647 * 2147483647) by (apply Z.mul_le_mono_nonneg; lia). lia.
Qed.
(** The chosen candidate saves at least as much as every other one worth extracting. *)
Lemma best_choice b trs t ss o : build_tree b empty_tree trs 0 = Ok t -> sequences b [] t = Ok ss -> Z.of_nat (commands_in trs) < 2 ^ 31 -> best_sequence b t = Ok o ->
  (forall s, o = Some s -> In s ss /\ worthwhile s) /\
  (forall s', In s' ss -> worthwhile s' -> zsum (map repeat_count (seq_locs s')) < 256 -> exists s, o = Some s /\ saving s' <= saving s).
Proof.
  intros Et Es Hm E. destruct (build_tree_all b trs) as (t' & Et' & Hw). rewrite Et in Et'. injection Et' as <-.
  destruct (sequences_ok b trs _ t Hw) as (ss' & Es' & Hss). rewrite Es in Es'. injection Es' as <-.
  apply (fun H => Forall_impl _ (fun s Hs => candidate_small trs s Hs H) Hss) in Hm.
  pose proof E as E0. unfold best_sequence in E. rewrite Es in E. cbn [bind] in E. inv_bind E. injection E as <-.
  destruct (best_of_max b trs ss Hss Hm None a ltac:(discriminate) Ha) as (H1 & _ & H3). split.
  - intros s Eo. destruct a as [[s1 sc]|]; [|discriminate]. cbn in Eo. injection Eo as ->. destruct (H1 s sc eq_refl) as [_ [Hin|]]; [|discriminate]. split; [exact Hin|].
    pose proof (best_spec _ _ _ Et _ E0 s eq_refl) as (_ & Hl & Ht). unfold total in Ht. split; [exact Hl|lia].
  - intros s' Hin Hwo Hb. pose proof Hss as Hss'. rewrite Forall_forall in Hss'. destruct (H3 s' Hin (kept_exact b trs s' (Hss' s' Hin) Hwo Hb)) as (s & sc & -> & Hle). exists s. split; [reflexivity|exact Hle].
Qed.

Lemma iter_choice b trs t fuel o : build_tree b empty_tree trs 0 = Ok t -> Z.of_nat (commands_in trs) < 2 ^ 31 -> (edge_count t < fuel)%nat ->
  best_sequence_iter fuel b t = Ok o ->
  exists ss, iter_collect fuel b [mk_item t [] 0] = Ok ss /\
  (forall s, o = Some s -> In s ss /\ worthwhile s) /\
  (forall s', In s' ss -> worthwhile s' -> zsum (map repeat_count (seq_locs s')) < 256 -> exists s, o = Some s /\ saving s' <= saving s).
Proof.
  intros Et Hm Hf E. destruct (iter_agrees b trs t fuel Et Hf) as (Eb & ss & Es & Ec). rewrite Eb in E. exists ss. split; [exact Ec|]. eapply best_choice; eassumption.
Qed.
