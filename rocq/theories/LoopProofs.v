(** LoopProofs.v: the merge loop of channels_to_voices processes an interleaving of the channels in
    (time, rank) order, and the hash map's iteration order does not matter (C21). *)
From Coq Require Import ZArith List Bool Lia ZifyBool ZifyNat Permutation Sorted.
From Verif Require Import Base ProofLib Messages Track Midi SpecMidi SpecVoices MergeProofs.
Ltac Zify.zify_post_hook ::= Z.div_mod_to_equations.

(** ** Iteration order *)
Lemma nth_ext_list {A} (l l' : list (list A)) : length l = length l' ->
  (forall j, nth j l [] = nth j l' []) -> l = l'.
Proof.
  revert l'; induction l as [|x l IH]; intros [|y l'] HL H; try discriminate; auto.
  pose proof (H O) as H0. cbn in H0. subst. f_equal. apply IH; [cbn in HL; lia|]. intros j. apply (H (S j)).
Qed.
Lemma push_at_swap {A} (l : list (list A)) i j x :
  bind (push_at l i x) (fun l' => push_at l' j x) = bind (push_at l j x) (fun l' => push_at l' i x).
Proof.
  destruct (Nat.lt_ge_cases i (length l)) as [Hi|Hi]; destruct (Nat.lt_ge_cases j (length l)) as [Hj|Hj].
  - destruct (push_at_some l i x Hi) as [li Ei]. destruct (push_at_some l j x Hj) as [lj Ej]. rewrite Ei, Ej. cbn [bind].
    destruct (push_at_ok _ _ _ _ Ei) as (_ & Li & Ni). destruct (push_at_ok _ _ _ _ Ej) as (_ & Lj & Nj).
    destruct (push_at_some li j x) as [lij Eij]; [lia|]. destruct (push_at_some lj i x) as [lji Eji]; [lia|].
    rewrite Eij, Eji. f_equal.
    destruct (push_at_ok _ _ _ _ Eij) as (_ & Lij & Nij). destruct (push_at_ok _ _ _ _ Eji) as (_ & Lji & Nji).
    apply nth_ext_list; [lia|]. intros k. rewrite Nij, Nji, Ni, Nj.
    destruct (Nat.eqb k i), (Nat.eqb k j); reflexivity.
  - rewrite (push_at_fail l j) by lia. destruct (push_at_some l i x Hi) as [li Ei]. rewrite Ei. cbn [bind].
    destruct (push_at_ok _ _ _ _ Ei) as (_ & Li & _). apply push_at_fail. lia.
  - rewrite (push_at_fail l i) by lia. destruct (push_at_some l j x Hj) as [li Ei]. rewrite Ei. cbn [bind].
    destruct (push_at_ok _ _ _ _ Ei) as (_ & Li & _). symmetry. apply push_at_fail. lia.
  - rewrite !push_at_fail by lia. reflexivity.
Qed.
Lemma bind_assoc {A B C} (o : outcome A) (f : A -> outcome B) (g : B -> outcome C) :
  bind (bind o f) g = bind o (fun a => bind (f a) g).
Proof. destruct o; reflexivity. Qed.
Lemma push_voices_perm vs ts ts' m : Permutation ts ts' -> push_voices vs ts m = push_voices vs ts' m.
Proof.
  intros H. unfold push_voices. revert vs. induction H; intros vs; cbn [ofold].
  - reflexivity.
  - destruct (push_at vs x m); cbn [bind]; auto.
  - rewrite <- !bind_assoc. rewrite push_at_swap. reflexivity.
  - rewrite IHPermutation1. apply IHPermutation2.
Qed.
Lemma existsb_perm {A} (f : A -> bool) l l' : Permutation l l' -> existsb f l = existsb f l'.
Proof. intros H. induction H; cbn; try congruence. destruct (f y), (f x); reflexivity. Qed.

Definition same : notes -> notes := fun n => n.
Lemma push_channel_event_order s base ch o m : permutes o ->
  push_channel_event s base ch o m = push_channel_event s base ch same m.
Proof.
  intros H. unfold push_channel_event. destruct (or_panic PIndex (nth_error (v_active s) ch)) as [n| | |]; try reflexivity.
  cbn [bind]. destruct (or_panic PIndex (nth_error base ch)) as [bv| | |]; try reflexivity. cbn [bind].
  assert (Hp : Permutation (map snd (o n)) (map snd n)) by (apply Permutation_map, H).
  unfold same. rewrite (push_voices_perm _ _ _ _ Hp).
  rewrite (existsb_perm (fun v => Nat.eqb v bv) _ _ Hp). reflexivity.
Qed.
Definition vstep (base : list nat) := voice_step base same.
Lemma voice_step_order base o s m : permutes o -> voice_step base o s m = vstep base s m.
Proof.
  intros H. unfold vstep, voice_step.
  destruct (fst m) as [? [] ?|? []| |]; try reflexivity; rewrite push_channel_event_order by exact H; reflexivity.
Qed.

(** ** The merge *)
Definition hk (r : list tmsg) : Z * Z := match r with m :: _ => key m | [] => (2 ^ 32 - 1, 255) end.
Definition times_ok (rs : list (list tmsg)) : Prop := Forall (Forall (fun x : tmsg => 0 <= snd x < 2 ^ 32)) rs.

Lemma min_index_spec ks : forall i best r, min_index ks i best = Some r ->
  exists bk, (match best with
              | Some (bi, bk') => (r = bi /\ bk = bk') \/ (i <= r /\ nth_error ks (r - i) = Some bk)%nat
              | None => (i <= r)%nat /\ nth_error ks (r - i) = Some bk
              end) /\
             (forall k, In k ks -> key_leb bk k = true) /\
             (match best with Some (_, bk') => key_leb bk bk' = true | None => True end).
Proof.
  induction ks as [|k ks IH]; intros i best r H; cbn [min_index] in H.
  - destruct best as [[bi bk]|]; [|discriminate]. injection H as <-. exists bk. split; [left; split; reflexivity|].
    split; [intros ? []|]. unfold key_leb. lia.
  - destruct best as [[bi bk']|].
    + destruct (key_ltb k bk') eqn:E.
      * apply IH in H. destruct H as (bk & Hr & Hall & Hle). exists bk. split.
        { right. destruct Hr as [[-> ->]|[Hi Hn]]; [rewrite Nat.sub_diag; split; [lia|reflexivity]|].
          split; [lia|]. replace (r - i)%nat with (S (r - S i)) by lia. exact Hn. }
        split; [intros k' [<-|Hk']; auto|]. unfold key_ltb, key_leb in *. lia.
      * apply IH in H. destruct H as (bk & Hr & Hall & Hle). exists bk. split.
        { destruct Hr as [Hr|[Hi Hn]]; [left; exact Hr|right]. split; [lia|].
          replace (r - i)%nat with (S (r - S i)) by lia. exact Hn. }
        split; [|exact Hle]. intros k' [<-|Hk']; auto. unfold key_ltb, key_leb in *. lia.
    + apply IH in H. destruct H as (bk & Hr & Hall & Hle). exists bk. split.
      { destruct Hr as [[-> ->]|[Hi Hn]]; [rewrite Nat.sub_diag; split; [lia|reflexivity]|].
        split; [lia|]. replace (r - i)%nat with (S (r - S i)) by lia. exact Hn. }
      split; [|exact I]. intros k' [<-|Hk']; auto.
Qed.
(** It is the first of the least. *)
Lemma min_index_first ks : forall i best r bk, min_index ks i best = Some r -> (i <= r)%nat -> nth_error ks (r - i) = Some bk ->
  (match best with Some (bi, _) => (bi < i)%nat | None => True end) ->
  (forall j k, (i + j < r)%nat -> nth_error ks j = Some k -> key_ltb bk k = true) /\
  (match best with Some (_, bk') => key_ltb bk bk' = true | None => True end).
Proof.
  induction ks as [|k ks IH]; intros i best r bk H Hi Hn Hb; cbn [min_index] in H.
  - destruct (r - i)%nat; discriminate.
  - assert (Hstep : forall best', min_index ks (S i) best' = Some r -> match best' with Some (bi, _) => (bi < S i)%nat | None => True end -> (S i <= r)%nat ->
      (forall j k, (S i + j < r)%nat -> nth_error ks j = Some k -> key_ltb bk k = true) /\
      (match best' with Some (_, bk') => key_ltb bk bk' = true | None => True end)).
    { intros best' H' Hb' Hr. apply (IH (S i) best' r bk H' Hr); [|exact Hb']. replace (r - i)%nat with (S (r - S i)) in Hn by lia. exact Hn. }
    destruct best as [[bi bk']|].
    + destruct (key_ltb k bk') eqn:E.
      * destruct (Nat.eq_dec r i) as [->|Hne].
        { rewrite Nat.sub_diag in Hn. injection Hn as ->. split; [intros; lia|exact E]. }
        destruct (Hstep _ H ltac:(cbn; lia) ltac:(lia)) as [H1 H2]. split.
        { intros [|j] k' Hj Hk; [injection Hk as <-; exact H2|apply (H1 j); [lia|exact Hk]]. }
        unfold key_ltb in *. lia.
      * assert (Hne : r <> i).
        { intros ->. destruct (min_index_spec _ _ _ _ H) as (bk0 & [[Hr _]|[Hr _]] & _); lia. }
        destruct (Hstep _ H ltac:(cbn; lia) ltac:(lia)) as [H1 H2]. split; [|exact H2].
        intros [|j] k' Hj Hk; [injection Hk as <-; unfold key_ltb in *; lia|apply (H1 j); [lia|exact Hk]].
    + split; [|exact I]. destruct (Nat.eq_dec r i) as [->|Hne]; [intros; lia|].
      destruct (Hstep _ H ltac:(cbn; lia) ltac:(lia)) as [H1 H2].
      intros [|j] k' Hj Hk; [injection Hk as <-; exact H2|apply (H1 j); [lia|exact Hk]].
Qed.
Lemma min_index_some ks : forall i best, (ks <> [] \/ best <> None) -> min_index ks i best <> None.
Proof.
  induction ks as [|k ks IH]; intros i best H; cbn [min_index].
  - destruct best; [discriminate|]. destruct H; congruence.
  - destruct best as [[bi bk]|]; [destruct (key_ltb k bk)|]; apply IH; right; discriminate.
Qed.

Lemma priority_bound m : 0 <= priority m <= 2.
Proof. destruct m as [|? []| |]; cbn; try lia. destruct (velocity =? 0); lia. Qed.

Definition rests (chs : list (list tmsg)) (idx : list nat) : list (list tmsg) :=
  map (fun p => skipn (snd p) (fst p)) (combine chs idx).
Lemma rests_nth chs idx i ch k : nth_error chs i = Some ch -> nth_error idx i = Some k ->
  nth_error (rests chs idx) i = Some (skipn k ch).
Proof.
  unfold rests. revert idx i. induction chs as [|c chs IH]; intros [|x idx] [|i] H1 H2; try discriminate; cbn in *.
  - injection H1 as ->. injection H2 as ->. reflexivity.
  - apply IH; assumption.
Qed.
Lemma head_key_hk ch k : head_key ch k = hk (skipn k ch).
Proof.
  unfold head_key, hk. revert k. induction ch as [|x ch IH]; intros [|k]; cbn; try reflexivity. apply IH.
Qed.
Lemma next_channel_rests chs idx : next_channel chs idx = min_index (map hk (rests chs idx)) 0 None.
Proof.
  unfold next_channel, rests. f_equal. rewrite map_map. apply map_ext. intros [ch k]. apply head_key_hk.
Qed.
Lemma rests_set chs : forall idx i ch k idx', length idx = length chs -> nth_error chs i = Some ch ->
  nth_error idx i = Some k -> set_nth idx i (S k) = Some idx' ->
  set_nth (rests chs idx) i (skipn (S k) ch) = Some (rests chs idx').
Proof.
  induction chs as [|c chs IH]; intros [|x idx] [|i] ch k idx' HL H1 H2 H3; try discriminate; cbn in *.
  - injection H1 as ->. injection H2 as ->. injection H3 as <-. reflexivity.
  - destruct (set_nth idx i (S k)) as [r|] eqn:E; [|discriminate]. injection H3 as <-.
    unfold rests in IH |- *. cbn. rewrite (IH idx i ch k r); auto.
Qed.
Lemma skipn_cons_nth {A} (l : list A) k x r : skipn k l = x :: r -> nth_error l k = Some x /\ skipn (S k) l = r.
Proof.
  revert k; induction l as [|y l IH]; intros [|k] H; cbn in *; try discriminate.
  - injection H as -> ->. split; reflexivity.
  - apply IH in H. exact H.
Qed.

Lemma forall_set_nth {A} (P : A -> Prop) (l : list A) i v r : Forall P l -> P v -> set_nth l i v = Some r -> Forall P r.
Proof.
  intros HF Hv H. apply Forall_forall. intros x Hx. apply In_nth_error in Hx. destruct Hx as [j Hj].
  rewrite (set_nth_spec _ _ _ _ H j) in Hj. destruct (Nat.eqb j i).
  - injection Hj as <-; exact Hv.
  - apply nth_error_In in Hj. rewrite Forall_forall in HF. auto.
Qed.
Definition total (rs : list (list tmsg)) : nat := list_sum (map (@length _) rs).
Lemma total_cons y rs : total (y :: rs) = (length y + total rs)%nat.
Proof. reflexivity. Qed.
Lemma total_set rs : forall i x r rs', nth_error rs i = Some (x :: r) -> set_nth rs i r = Some rs' ->
  total rs = S (total rs').
Proof.
  induction rs as [|y rs IH]; intros [|i] x r rs' H1 H2; try discriminate; cbn [nth_error set_nth] in *.
  - injection H1 as ->. injection H2 as <-. rewrite !total_cons. reflexivity.
  - destruct (set_nth rs i r) as [q|] eqn:E; [|discriminate]. injection H2 as <-. rewrite !total_cons.
    rewrite (IH _ _ _ _ H1 E). lia.
Qed.
Lemma total_zero rs : total rs = O -> Forall (fun r => r = []) rs.
Proof.
  induction rs as [|y rs IH]; intros H; constructor; rewrite total_cons in H.
  - destruct y; cbn in H; [reflexivity|lia].
  - apply IH. lia.
Qed.
Lemma total_nils rs : Forall (fun r => r = []) rs -> total rs = O.
Proof. induction 1 as [|r rs -> H IH]; [reflexivity|]. rewrite total_cons, IH. reflexivity. Qed.
Definition finished (rs : list (list tmsg)) : nat := length (filter is_nil rs).
Lemma finished_all rs : (finished rs <= length rs)%nat /\ (finished rs = length rs <-> Forall (fun r => r = []) rs).
Proof.
  unfold finished. induction rs as [|y rs [IH1 IH2]]; cbn; [split; [lia|split; auto]|].
  destruct y as [|z y]; cbn [is_nil length].
  - split; [lia|]. split; intros H.
    + constructor; [reflexivity|]. apply IH2. lia.
    + inversion H; subst. apply IH2 in H3. lia.
  - split; [lia|]. split; intros H; [lia|]. inversion H; discriminate.
Qed.
Lemma finished_set rs : forall i x r rs', nth_error rs i = Some (x :: r) -> set_nth rs i r = Some rs' ->
  finished rs' = (if is_nil r then S (finished rs) else finished rs).
Proof.
  unfold finished. induction rs as [|y rs IH]; intros [|i] x r rs' H1 H2; try discriminate; cbn in *.
  - injection H1 as ->. injection H2 as <-. cbn. destruct (is_nil r); reflexivity.
  - destruct (set_nth rs i r) as [q|] eqn:E; [|discriminate]. injection H2 as <-. cbn.
    pose proof (IH _ _ _ _ H1 E) as Hr. destruct (is_nil y); cbn [length]; rewrite Hr; destruct (is_nil r); reflexivity.
Qed.

(** The channel picked has a message left and that message is not after any other channel's next. *)
Lemma pick_spec rs : times_ok rs -> ~ Forall (fun r => r = []) rs ->
  exists i x r, min_index (map hk rs) 0 None = Some i /\ nth_error rs i = Some (x :: r) /\
    (forall y q, In (y :: q) rs -> not_after x y) /\
    (forall j y q, (j < i)%nat -> nth_error rs j = Some (y :: q) -> ~ not_after y x).
Proof.
  intros Ht Hne. destruct rs as [|r0 rs0] eqn:Ers; [exfalso; apply Hne; constructor|]. rewrite <- Ers in *.
  destruct (min_index (map hk rs) 0 None) as [i|] eqn:E.
  2:{ exfalso. revert E. apply min_index_some. left. rewrite Ers. discriminate. }
  apply min_index_spec in E as E'. destruct E' as (bk & [_ Hi] & Hall & _). rewrite Nat.sub_0_r in Hi.
  destruct (nth_error rs i) as [q|] eqn:Eq.
  2:{ rewrite nth_error_map, Eq in Hi. discriminate. }
  rewrite nth_error_map, Eq in Hi. cbn in Hi. injection Hi as Hk.
  assert (Hx : exists y z, In (y :: z) rs).
  { clear -Hne. induction rs as [|[|y z] rs IH]; [exfalso; apply Hne; constructor| |].
    - destruct IH as (y & z & H). { intros H. apply Hne. constructor; auto. } exists y, z; right; exact H.
    - exists y, z. left; reflexivity. }
  destruct Hx as (y & z & Hyz).
  assert (Hq : exists x r, q = x :: r).
  { destruct q as [|x r]; [|eauto]. exfalso. cbn in Hk.
    specialize (Hall (hk (y :: z))). unfold times_ok in Ht. rewrite Forall_forall in Ht. specialize (Ht _ Hyz). inversion Ht; subst.
    assert (Hle : key_leb (2 ^ 32 - 1, 255) (hk (y :: z)) = true) by (apply Hall, in_map; exact Hyz).
    unfold key_leb, hk, key in Hle. cbn [fst snd] in Hle. pose proof (priority_bound (fst y)). lia. }
  destruct Hq as (x & r & ->). exists i, x, r. split; [reflexivity|]. split; [exact Eq|]. split.
  - intros y' q' Hin. apply key_leb_spec. specialize (Hall (hk (y' :: q'))). cbn [hk] in *. rewrite Hk. apply Hall.
    apply in_map_iff. exists (y' :: q'). split; [reflexivity|exact Hin].
  - intros j y' q' Hj Hy' Hna. destruct (min_index_first _ _ _ _ (key x) E (Nat.le_0_l i)) as [Hf _].
    + rewrite Nat.sub_0_r, nth_error_map, Eq. reflexivity.
    + exact I.
    + specialize (Hf j (key y') Hj). rewrite nth_error_map, Hy' in Hf. specialize (Hf eq_refl). apply key_leb_spec in Hna. unfold key_leb, key_ltb in *. lia.
Qed.


(** An interleaving that always takes a least next message, the first of them. *)
Inductive ordered_merge : list (list tmsg) -> list tmsg -> Prop :=
| om_nil rs : Forall (fun r => r = []) rs -> ordered_merge rs []
| om_cons rs i x r rs' m : nth_error rs i = Some (x :: r) -> (forall y q, In (y :: q) rs -> not_after x y) ->
    (forall j y q, (j < i)%nat -> nth_error rs j = Some (y :: q) -> ~ not_after y x) ->
    set_nth rs i r = Some rs' -> ordered_merge rs' m -> ordered_merge rs (x :: m).
Lemma ordered_interleave rs m : ordered_merge rs m -> interleave rs m.
Proof. induction 1; econstructor; eauto. Qed.

Lemma voices_loop_merge : forall n chs idx rs,
  rs = rests chs idx -> length idx = length chs -> Forall2 (fun ch k => (k <= length ch)%nat) chs idx -> times_ok rs ->
  total rs = n ->
  exists m, ordered_merge rs m /\
    forall fuel base order s, (n < fuel)%nat -> (forall k, permutes (order k)) ->
      voices_loop fuel chs base order idx (finished rs) s = ofold (vstep base) m s.
Proof.
  induction n as [|n IH]; intros chs idx rs Hrs HL HF Ht Htot.
  - apply total_zero in Htot. exists []. split; [constructor; exact Htot|]. intros fuel base order s Hf _.
    apply finished_all in Htot. rewrite Htot.
    assert (HLr : length rs = length chs) by (subst rs; unfold rests; rewrite map_length, combine_length; lia).
    destruct fuel; cbn [voices_loop]; rewrite HLr, Nat.ltb_irrefl; reflexivity.
  - assert (Hne : ~ Forall (fun r => r = []) rs).
    { intros H. apply total_nils in H. lia. }
    destruct (pick_spec rs Ht Hne) as (i & x & r & Hp & Hi & Hmin & Hfirst).
    assert (HLr : length rs = length chs) by (subst rs; unfold rests; rewrite map_length, combine_length; lia).
    apply nth_error_lt in Hi as Hlt.
    destruct (nth_error chs i) as [ch|] eqn:Ech; [|apply nth_error_None in Ech; lia].
    destruct (nth_error idx i) as [k|] eqn:Ek; [|apply nth_error_None in Ek; lia].
    pose proof (rests_nth _ _ _ _ _ Ech Ek) as Hr. rewrite <- Hrs, Hi in Hr. injection Hr as Hr.
    symmetry in Hr. destruct (skipn_cons_nth _ _ _ _ Hr) as [Hx Hr'].
    destruct (set_nth_some idx i (S k)) as [idx' Hidx]; [lia|].
    pose proof (rests_set _ _ _ _ _ _ HL Ech Ek Hidx) as Hset. rewrite Hr', <- Hrs in Hset.
    assert (Htr : Forall (fun x0 : tmsg => 0 <= snd x0 < 2 ^ 32) r).
    { unfold times_ok in Ht. rewrite Forall_forall in Ht. apply nth_error_In in Hi. specialize (Ht _ Hi). inversion Ht; assumption. }
    destruct (IH chs idx' (rests chs idx')) as (m & Hm & Hrun); [reflexivity| | | | |].
    + rewrite (set_nth_length _ _ _ _ Hidx). exact HL.
    + clear -HF Hidx Ech Ek Hx. apply nth_error_lt in Hx. revert i idx' Hidx Ech Ek. induction HF as [|c k' chs idx Hc HF IH];
        intros [|i] idx' Hidx Ech Ek; try discriminate; cbn in *.
      * injection Ech as ->. injection Ek as ->. injection Hidx as <-. constructor; [lia|exact HF].
      * destruct (set_nth idx i (S k)) as [q|] eqn:E; [|discriminate]. injection Hidx as <-. constructor; [exact Hc|].
        eapply IH; eauto.
    + eapply forall_set_nth; [exact Ht|exact Htr|exact Hset].
    + pose proof (total_set _ _ _ _ _ Hi Hset). lia.
    + exists (x :: m). split; [econstructor; eauto|].
      intros fuel base order s Hfuel Hord. destruct fuel as [|fuel]; [lia|]. cbn [voices_loop].
      destruct (finished_all rs) as [Hle Heq]. destruct (Nat.ltb_spec (finished rs) (length chs)) as [Hlt'|Hge].
      2:{ exfalso. apply Hne, Heq. lia. }
      rewrite next_channel_rests, <- Hrs, Hp. cbn [or_panic bind]. rewrite Ech. cbn [or_panic bind].
      rewrite Ek. cbn [or_panic bind]. rewrite Hx. cbn [or_panic bind]. rewrite Hidx. cbn [or_panic bind].
      rewrite (voice_step_order base _ s x (Hord fuel)). cbn [ofold].
      replace (if Nat.eqb (S k) (length ch) then S (finished rs) else finished rs) with (finished (rests chs idx')).
      2:{ rewrite (finished_set _ _ _ _ _ Hi Hset). destruct r as [|z r]; cbn [is_nil].
          - destruct (Nat.eqb_spec (S k) (length ch)) as [|Hne']; [reflexivity|].
            exfalso. apply nth_error_lt in Hx. assert (Hlen : length (skipn (S k) ch) = O) by (rewrite Hr'; reflexivity).
            rewrite skipn_length in Hlen. lia.
          - destruct (Nat.eqb_spec (S k) (length ch)) as [He|]; [|reflexivity].
            rewrite He, skipn_all in Hr'. discriminate. }
      destruct (vstep base s x) as [s1| | |]; cbn [bind]; try reflexivity. apply Hrun; [lia|exact Hord].
Qed.

Lemma rests_zero chs : rests chs (repeat O (length chs)) = chs.
Proof. unfold rests. induction chs as [|c chs IH]; cbn; [reflexivity|]. f_equal. exact IH. Qed.

Lemma channels_to_voices_merge chs : times_ok chs ->
  exists m, ordered_merge chs m /\ forall base order, (forall k, permutes (order k)) ->
    channels_to_voices chs base order = let* s := ofold (vstep base) m (vstate0 base) in Ok (v_voices s).
Proof.
  intros Ht. destruct (voices_loop_merge (total chs) chs (repeat O (length chs)) chs) as (m & Hm & Hrun); auto.
  - symmetry; apply rests_zero.
  - apply repeat_length.
  - clear Ht. induction chs; cbn; constructor; auto. lia.
  - exists m. split; [exact Hm|]. intros base order Ho. unfold channels_to_voices.
    change (length (filter is_nil chs)) with (finished chs). rewrite Hrun; [reflexivity| |exact Ho].
    unfold total. lia.
Qed.

(** ** Consequences of the merge *)
Lemma ordered_merge_sorted rs m : ordered_merge rs m -> Forall (StronglySorted not_after) rs ->
  StronglySorted not_after m /\ forall y, In y m -> exists r, In r rs /\ In y r.
Proof.
  induction 1 as [rs H|rs i x r rs' m Hi Hmin Hfirst Hset Hm IH]; intros Hs; [split; [constructor|intros ? []]|].
  assert (Hsx : StronglySorted not_after (x :: r)).
  { rewrite Forall_forall in Hs. apply Hs. eapply nth_error_In; eauto. }
  inversion Hsx as [|? ? Hsr Hfr]; subst.
  destruct (IH (forall_set_nth _ _ _ _ _ Hs Hsr Hset)) as [IH1 IH2].
  assert (Hin : forall q, In q rs' -> q = r \/ In q rs).
  { intros q Hq. apply In_nth_error in Hq. destruct Hq as [j Hj]. rewrite (set_nth_spec _ _ _ _ Hset) in Hj.
    destruct (Nat.eqb j i); [injection Hj as <-; auto|right; eapply nth_error_In; eauto]. }
  split.
  - constructor; [exact IH1|]. apply Forall_forall. intros y Hy. destruct (IH2 y Hy) as (q & Hq & Hyq).
    destruct (Hin q Hq) as [->|Hq'].
    + rewrite Forall_forall in Hfr. auto.
    + rewrite Forall_forall in Hs. specialize (Hs q Hq'). destruct q as [|z q]; [destruct Hyq|].
      inversion Hs as [|? ? _ Hz]; subst. specialize (Hmin z q Hq'). destruct Hyq as [<-|Hyq]; [exact Hmin|].
      rewrite Forall_forall in Hz. eapply not_after_trans; [exact Hmin|auto].
  - intros y [<-|Hy]; [exists (x :: r); split; [eapply nth_error_In; eauto|left; reflexivity]|].
    destruct (IH2 y Hy) as (q & Hq & Hyq). destruct (Hin q Hq) as [->|Hq'].
    + exists (x :: r). split; [eapply nth_error_In; eauto|right; exact Hyq].
    + exists q; auto.
Qed.

(** Each channel's messages appear in the merged list in the channel's own order. *)
Lemma interleave_filter rs m : interleave rs m -> well_channelled rs ->
  forall c r, nth_error rs c = Some r -> filter (for_channel c) m = r.
Proof.
  induction 1 as [rs H|rs i x r rs' m Hi Hset Hm IH]; intros Hw c q Hc.
  - rewrite Forall_forall in H. apply nth_error_In in Hc. rewrite (H _ Hc). reflexivity.
  - assert (Hw' : well_channelled rs').
    { intros c' r' y Hc' Hy. rewrite (set_nth_spec _ _ _ _ Hset) in Hc'. destruct (Nat.eqb_spec c' i) as [He|He].
      - subst c'. injection Hc' as <-. eapply Hw; [exact Hi|right; exact Hy].
      - eapply Hw; eauto. }
    pose proof (Hw i _ x Hi (or_introl eq_refl)) as Hx. cbn [filter].
    destruct (Nat.eqb_spec c i) as [He|He].
    + subst c. rewrite Hx. rewrite Hi in Hc. injection Hc as <-. f_equal. apply IH; [exact Hw'|].
      rewrite (set_nth_spec _ _ _ _ Hset), Nat.eqb_refl. reflexivity.
    + replace (for_channel c x) with false.
      2:{ symmetry. unfold for_channel in *. destruct (addressee (fst x)); [|reflexivity]. lia. }
      apply IH; [exact Hw'|]. rewrite (set_nth_spec _ _ _ _ Hset).
      destruct (Nat.eqb_spec c i); [congruence|exact Hc].
Qed.
Lemma interleave_perm rs m : interleave rs m -> Permutation m (concat rs).
Proof.
  induction 1 as [rs H|rs i x r rs' m Hi Hset Hm IH].
  - replace (concat rs) with (@nil tmsg); [constructor|]. induction H as [|? ? -> ? IH]; cbn; auto.
  - rewrite IH. clear -Hi Hset. revert i rs' Hi Hset. induction rs as [|y rs IH]; intros [|i] rs' Hi Hset; try discriminate; cbn in *.
    + injection Hi as ->. injection Hset as <-. reflexivity.
    + destruct (set_nth rs i r) as [q|] eqn:E; [|discriminate]. injection Hset as <-. cbn.
      rewrite <- (IH _ _ Hi E). apply Permutation_middle.
Qed.

(** C21 *)
Lemma voices_loop_order o1 o2 chs base : (forall k, permutes (o1 k)) -> (forall k, permutes (o2 k)) ->
  forall fuel idx done s, voices_loop fuel chs base o1 idx done s = voices_loop fuel chs base o2 idx done s.
Proof.
  intros H1 H2. induction fuel as [|fuel IH]; intros idx done s; cbn [voices_loop]; [reflexivity|].
  destruct (Nat.ltb done (length chs)); [|reflexivity].
  destruct (or_panic PUnwrap (next_channel chs idx)) as [nc| | |]; cbn [bind]; try reflexivity.
  destruct (or_panic PIndex (nth_error chs nc)) as [ch| | |]; cbn [bind]; try reflexivity.
  destruct (or_panic PIndex (nth_error idx nc)) as [k| | |]; cbn [bind]; try reflexivity.
  destruct (or_panic PIndex (nth_error ch k)) as [ev| | |]; cbn [bind]; try reflexivity.
  destruct (or_panic PIndex (set_nth idx nc (S k))) as [idx'| | |]; cbn [bind]; try reflexivity.
  rewrite !voice_step_order by auto. destruct (vstep base s ev); cbn [bind]; auto.
Qed.
Lemma order_irrelevant chs base o1 o2 : (forall k, permutes (o1 k)) -> (forall k, permutes (o2 k)) ->
  channels_to_voices chs base o1 = channels_to_voices chs base o2.
Proof. intros H1 H2. unfold channels_to_voices. rewrite (voices_loop_order o1 o2) by assumption. reflexivity. Qed.
Lemma read_order_irrelevant b cbs complete o1 o2 : (forall k, permutes (o1 k)) -> (forall k, permutes (o2 k)) ->
  midi_read b cbs complete o1 = midi_read b cbs complete o2.
Proof.
  intros H1 H2. unfold midi_read. destruct (ofold on_callback cbs (mk_rstate [] 0)); cbn [bind]; try reflexivity.
  destruct complete; [|reflexivity]. destruct (tracks_to_channels b (r_tracks a)); cbn [bind]; try reflexivity.
  destruct (all_intervals b a0 0 0); cbn [bind]; try reflexivity.
  destruct (find_base_voices (fst a1) (repeat [] 8)); [|reflexivity].
  rewrite (order_irrelevant a0 l o1 o2 H1 H2). reflexivity.
Qed.
