(** PathProofs.v: the file name of a path is its last name (SpecPath). *)
From Coq Require Import List String Ascii Bool.
From Verif Require Import Base Paths SpecPath.
Import ListNotations.
Open Scope string_scope.

Lemma app_assoc_s (a b c : string) : ((a ++ b) ++ c = a ++ (b ++ c))%string.
Proof. induction a as [|x a IH]; cbn [append]; [reflexivity|now rewrite IH]. Qed.
Lemma app_nil_s (a : string) : (a ++ "" = a)%string.
Proof. induction a as [|x a IH]; cbn [append]; [reflexivity|now rewrite IH]. Qed.
Lemma split_cons s : exists w ws, split_slash s = w :: ws.
Proof. destruct s as [|c s]; cbn [split_slash]; [eauto|]. destruct (Ascii.eqb c "/"); [eauto|]. destruct (split_slash s); eauto. Qed.
Lemma split_app a b : split_slash (a ++ "/" ++ b) = (split_slash a ++ split_slash b)%list.
Proof.
  induction a as [|c a IH]; cbn [append split_slash].
  - change (Ascii.eqb "/" "/") with true. reflexivity.
  - cbn [append] in IH. rewrite IH. destruct (Ascii.eqb c "/"); [reflexivity|]. destruct (split_cons a) as (w & ws & ->). reflexivity.
Qed.
Lemma split_plain x : no_slash x -> split_slash x = [x].
Proof.
  induction x as [|c x IH]; intros H; [reflexivity|]. cbn [split_slash]. destruct (Ascii.eqb c "/") eqn:E.
  - apply Ascii.eqb_eq in E. subst c. exfalso. apply (H "" x). reflexivity.
  - rewrite IH; [reflexivity|]. intros a b E'. subst x. apply (H (String c a) b). reflexivity.
Qed.
Lemma concat_split d : String.concat "/" (split_slash d) = d.
Proof.
  induction d as [|c d IH]; [reflexivity|]. cbn [split_slash]. destruct (split_cons d) as (w & ws & E). rewrite E in IH |- *. destruct (Ascii.eqb c "/") eqn:Ec.
  - apply Ascii.eqb_eq in Ec. subst c. change (String.concat "/" ("" :: w :: ws)) with ("" ++ "/" ++ String.concat "/" (w :: ws)). rewrite IH. reflexivity.
  - destruct ws as [|v ws]; cbn [String.concat append] in *; now rewrite IH.
Qed.
Lemma no_slash_nil : no_slash "".
Proof. intros [|c a] b H; discriminate. Qed.
Lemma no_slash_cons c x : Ascii.eqb c "/" = false -> no_slash x -> no_slash (String c x).
Proof.
  intros Hc Hx [|d a] b H; cbn [append] in H.
  - injection H as -> _. discriminate.
  - injection H as _ H. exact (Hx a b H).
Qed.
Lemma split_no_slash s : Forall no_slash (split_slash s).
Proof.
  induction s as [|c s IH]; cbn [split_slash]; [constructor; [apply no_slash_nil|constructor]|].
  destruct (Ascii.eqb c "/") eqn:E; [constructor; [apply no_slash_nil|exact IH]|].
  destruct (split_slash s) as [|w ws]; inversion IH; subst; constructor; try assumption; apply no_slash_cons; auto using no_slash_nil.
Qed.

Definition filler (c : string) : Prop := c = "" \/ c = ".".
Lemma padding_split s : padding s -> forall x, no_slash x -> exists l, split_slash (x ++ s) = (x :: l)%list /\ Forall filler l.
Proof.
  induction 1 as [|s _ IH|s _ IH]; intros x Hx.
  - rewrite app_nil_s, split_plain by exact Hx. exists []. auto.
  - destruct (IH "" no_slash_nil) as (l & E & Hl). cbn [append] in E. rewrite split_app, (split_plain x) by exact Hx. rewrite E.
    exists ("" :: l). split; [reflexivity|]. constructor; [left; reflexivity|exact Hl].
  - destruct (IH "." ltac:(apply no_slash_cons; [reflexivity|apply no_slash_nil])) as (l & E & Hl).
    change ("/." ++ s) with ("/" ++ ("." ++ s)). rewrite split_app, (split_plain x) by exact Hx. rewrite E.
    exists ("." :: l). split; [reflexivity|]. constructor; [right; reflexivity|exact Hl].
Qed.
Lemma last_opt_snoc {A} (l : list A) x : last_opt (l ++ [x]) = Some x.
Proof. induction l as [|y l IH]; [reflexivity|]. cbn [app last_opt]. destruct (l ++ [x])%list eqn:E; [destruct l; discriminate|]. exact IH. Qed.
Lemma filler_dropped l : Forall filler l -> filter (fun c => negb (String.eqb c "" || String.eqb c ".")) l = [].
Proof. induction 1 as [|c l [-> | ->] _ IH]; [reflexivity| |]; cbn; exact IH. Qed.
Lemma names_file_name p n : names_file p n -> file_name p = Some n.
Proof.
  intros (Hn & H0 & H1 & H2 & before & after & -> & Hb & Ha). unfold file_name, components.
  destruct (padding_split _ Ha _ Hn) as (l & E & Hl).
  assert (Hs : exists l0, split_slash (before ++ n ++ after) = (l0 ++ n :: l)%list).
  { destruct Hb as [->|(b & ->)]; [exists []; exact E|]. exists (split_slash b). rewrite app_assoc_s, split_app, E. reflexivity. }
  destruct Hs as (l0 & ->). rewrite filter_app. cbn [filter]. apply String.eqb_neq in H0, H1, H2. rewrite H0, H1. cbn [orb negb].
  rewrite (filler_dropped l Hl), last_opt_snoc, H2. reflexivity.
Qed.
Lemma last_filter {A} (f : A -> bool) l n : last_opt (filter f l) = Some n -> exists l1 l2, l = (l1 ++ n :: l2)%list /\ f n = true /\ Forall (fun x => f x = false) l2.
Proof.
  induction l as [|x l IH]; [discriminate|]. cbn [filter]. destruct (f x) eqn:E.
  - destruct (filter f l) as [|y r] eqn:Ef.
    + intros [= <-]. exists [], l. split; [reflexivity|]. split; [exact E|]. apply Forall_forall. intros z Hz. destruct (f z) eqn:Ez; [|reflexivity].
      assert (In z (filter f l)) by (apply filter_In; auto). rewrite Ef in *. contradiction.
    + intros H. destruct (IH H) as (l1 & l2 & -> & H1 & H2). exists (x :: l1), l2. auto.
  - intros H. destruct (IH H) as (l1 & l2 & -> & H1 & H2). exists (x :: l1), l2. auto.
Qed.
Fixpoint tails (l : list string) : string := match l with [] => "" | c :: l' => "/" ++ c ++ tails l' end.
Lemma concat_tails n l : String.concat "/" (n :: l) = n ++ tails l.
Proof. revert n. induction l as [|c l IH]; intros n; [symmetry; apply app_nil_s|]. change (String.concat "/" (n :: c :: l)) with (n ++ "/" ++ String.concat "/" (c :: l)). rewrite IH. reflexivity. Qed.
Lemma concat_middle l1 n l2 : exists before, String.concat "/" (l1 ++ n :: l2) = before ++ n ++ tails l2 /\ (before = "" \/ exists b, before = b ++ "/").
Proof.
  induction l1 as [|x l1 (before & E & Hb)]; [exists ""; split; [apply concat_tails|auto]|].
  exists (x ++ "/" ++ before). split.
  - assert (Hc : exists y r, (l1 ++ n :: l2)%list = y :: r) by (destruct l1; cbn; eauto). destruct Hc as (y & r & Ey). cbn [app]. rewrite Ey in *.
    change (String.concat "/" (x :: y :: r)) with (x ++ "/" ++ String.concat "/" (y :: r)). rewrite E, !app_assoc_s. reflexivity.
  - right. destruct Hb as [->|(b & ->)]; [exists x; rewrite app_nil_s; reflexivity|]. exists (x ++ "/" ++ b). rewrite !app_assoc_s. reflexivity.
Qed.
Lemma tails_padding l : Forall filler l -> padding (tails l).
Proof. induction 1 as [|c l [-> | ->] _ IH]; [constructor| |]; cbn [tails]; [exact (pad_slash _ IH)|exact (pad_dot _ IH)]. Qed.
Lemma file_name_names p n : file_name p = Some n <-> names_file p n.
Proof.
  split; [|apply names_file_name]. unfold file_name. destruct (last_opt (components p)) as [c|] eqn:E; [|discriminate].
  destruct (String.eqb_spec c ".."); [discriminate|]. intros [= ->]. unfold components in E. apply last_filter in E. destruct E as (l1 & l2 & El & Hf & Hl).
  pose proof (split_no_slash p) as Hns. rewrite El in Hns. apply Forall_app in Hns. destruct Hns as (_ & Hns). inversion Hns; subst.
  apply Bool.negb_true_iff, Bool.orb_false_iff in Hf. destruct Hf as (Hf0 & Hf1). apply String.eqb_neq in Hf0, Hf1.
  destruct (concat_middle l1 n l2) as (before & Ec & Hb). rewrite <- El, concat_split in Ec.
  split; [assumption|]. split; [assumption|]. split; [assumption|]. split; [assumption|]. exists before, (tails l2). split; [exact Ec|]. split; [exact Hb|].
  apply tails_padding. eapply Forall_impl; [|exact Hl]. intros x Hx. apply Bool.negb_false_iff, Bool.orb_true_iff in Hx.
  destruct Hx as [Hx|Hx]; apply String.eqb_eq in Hx; [left|right]; exact Hx.
Qed.
Lemma has_name_iff p : has_name p <-> file_name p <> None.
Proof.
  split.
  - intros (n & H). apply file_name_names in H. congruence.
  - intros H. destruct (file_name p) as [n|] eqn:E; [|congruence]. exists n. apply file_name_names, E.
Qed.
