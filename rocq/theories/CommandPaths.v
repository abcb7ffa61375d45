(** CommandPaths.v: the directory of a manifest (C70). *)
From Coq Require Import ZArith List String Ascii Lia.
From Verif Require Import Base Paths Run SpecPath SpecSong SpecCommand PathProofs.
Import ListNotations.
Open Scope string_scope.

Lemma trim_plain k x l : plain_name x -> trim_back k (x :: l) = x :: l.
Proof.
  intros (_ & H1 & H2). cbn [trim_back]. apply String.eqb_neq in H1, H2. rewrite H1, H2. reflexivity.
Qed.
Lemma plain_start x : plain_name x -> is_absolute x = false.
Proof.
  intros (H & H1 & _). destruct x as [|c x]; [congruence|]. cbn [is_absolute]. destruct (Ascii.eqb c "/") eqn:E; [|reflexivity].
  apply Ascii.eqb_eq in E. subst c. exfalso. apply (H "" x). reflexivity.
Qed.
Lemma parent_directory p d : directory p d -> parent p = Some d.
Proof.
  intros (name & Hn & H). pose proof (split_plain name (proj1 Hn)) as En. destruct H as [[-> ->]|[[-> ->]|[-> (x & Hx & Hd)]]].
  - unfold parent. rewrite (plain_start name Hn), En. cbn [negb rev app]. rewrite trim_plain by exact Hn. reflexivity.
  - unfold parent. change (is_absolute ("/" ++ name)) with true. change ("/" ++ name) with ("" ++ "/" ++ name). rewrite split_app, En. cbn [split_slash app tl rev].
    rewrite trim_plain by exact Hn. reflexivity.
  - unfold parent. rewrite split_app, En.
    assert (Hs : exists l, split_slash d = (l ++ [x])%list).
    { pose proof (split_plain x (proj1 Hx)) as Ex. destruct Hd as [->|[e ->]]; [exists []; exact Ex|]. exists (split_slash e). rewrite split_app, Ex. reflexivity. }
    destruct Hs as [l El]. assert (Ha : is_absolute (d ++ "/" ++ name) = is_absolute d).
    { destruct d as [|c d]; [|reflexivity]. exfalso. cbn [split_slash] in El. destruct Hx as (_ & Hx & _). apply Hx. destruct l as [|? [|]]; try discriminate. cbn in El. congruence. }
    rewrite Ha, El. destruct (is_absolute d) eqn:Eabs.
    + destruct d as [|c d]; [discriminate|]. cbn [is_absolute] in Eabs. cbn [split_slash] in El. rewrite Eabs in El. apply Ascii.eqb_eq in Eabs. subst c.
      destruct l as [|w l]; [exfalso; destruct (split_cons d) as (? & ? & E); rewrite E in El; discriminate|]. cbn [app] in El. injection El as <- El. cbn [app tl].
      rewrite rev_app_distr. cbn [rev app]. rewrite trim_plain by exact Hn. rewrite rev_app_distr. cbn [rev app negb]. rewrite trim_plain by exact Hx. cbn [rev]. rewrite rev_involutive, <- El, concat_split. reflexivity.
    + rewrite rev_app_distr. cbn [rev app]. rewrite trim_plain by exact Hn. rewrite rev_app_distr. cbn [rev app negb]. rewrite trim_plain by exact Hx. cbn [rev]. rewrite rev_involutive, <- El, concat_split. reflexivity.
Qed.
