(** Facts about the shared vocabulary of Base.v. *)
From Coq Require Import String Ascii List Bool Arith ZArith Lia.
From Verif Require Import Base.
Import ListNotations.

Section DictFacts.
  Context {K V : Type}.
  Variable eqb : K -> K -> bool.
  Hypothesis eqb_spec : forall a b, reflect (a = b) (eqb a b).

  Lemma eqb_refl_ : forall a, eqb a a = true.
  Proof. intro a. destruct (eqb_spec a a); congruence. Qed.

  Lemma dget_dset : forall (d : list (K * V)) k v k',
    dget eqb (dset eqb d k v) k' = if eqb k' k then Some v else dget eqb d k'.
  Proof.
    induction d as [|[k0 v0] d IH]; intros k v k'; simpl.
    - destruct (eqb_spec k' k); reflexivity.
    - destruct (eqb_spec k k0); simpl.
      + subst. destruct (eqb_spec k' k0); reflexivity.
      + rewrite IH. destruct (eqb_spec k' k0); [|reflexivity].
        destruct (eqb_spec k' k); congruence.
  Qed.

  Lemma dget_None_notin : forall (d : list (K * V)) k,
    dget eqb d k = None <-> ~ In k (dkeys d).
  Proof.
    induction d as [|[k0 v0] d IH]; intros k; simpl.
    - tauto.
    - destruct (eqb_spec k k0).
      + subst. split; [discriminate|]. intros H. exfalso; apply H; auto.
      + rewrite IH. split; intros H; [intros [H1|H1]|]; auto.
  Qed.

  Lemma dget_In : forall (d : list (K * V)) k v,
    dget eqb d k = Some v -> In (k, v) d.
  Proof.
    induction d as [|[k0 v0] d IH]; intros k v; simpl; [discriminate|].
    destruct (eqb_spec k k0); intros H.
    - inversion H; subst; auto.
    - right; auto.
  Qed.

  Lemma In_dget : forall (d : list (K * V)) k v,
    NoDup (dkeys d) -> In (k, v) d -> dget eqb d k = Some v.
  Proof.
    induction d as [|[k0 v0] d IH]; intros k v ND; simpl; [tauto|].
    simpl in ND. inversion ND as [|? ? Hn ND']; subst.
    intros [H|H].
    - inversion H; subst. rewrite eqb_refl_. reflexivity.
    - destruct (eqb_spec k k0).
      + subst. exfalso. apply Hn. change k0 with (fst (k0, v)).
        apply in_map; exact H.
      + auto.
  Qed.

  Lemma dset_new : forall (d : list (K * V)) k v,
    dget eqb d k = None -> dset eqb d k v = d ++ [(k, v)].
  Proof.
    induction d as [|[k0 v0] d IH]; intros k v; simpl; [reflexivity|].
    destruct (eqb_spec k k0); [discriminate|].
    intros H. rewrite IH by assumption. reflexivity.
  Qed.

  Lemma dset_keys_old : forall (d : list (K * V)) k v,
    dget eqb d k <> None -> dkeys (dset eqb d k v) = dkeys d.
  Proof.
    induction d as [|[k0 v0] d IH]; intros k v; simpl; [congruence|].
    destruct (eqb_spec k k0); simpl; [reflexivity|].
    intros H. f_equal. apply IH; exact H.
  Qed.

  Lemma dset_NoDup : forall (d : list (K * V)) k v,
    NoDup (dkeys d) -> NoDup (dkeys (dset eqb d k v)).
  Proof.
    intros d k v ND.
    destruct (dget eqb d k) eqn:E.
    - rewrite dset_keys_old by congruence. exact ND.
    - rewrite dset_new by assumption. unfold dkeys. rewrite map_app.
      apply dget_None_notin in E. unfold dkeys in *. simpl.
      clear eqb_spec. induction (map fst d) as [|a l IH]; simpl.
      + constructor; [intros []|constructor].
      + inversion ND; subst. constructor.
        * rewrite in_app_iff. simpl. intros [H|[H|[]]]; auto.
          subst. apply E; simpl; auto.
        * apply IH; auto. intro; apply E; simpl; auto.
  Qed.

  Lemma length_dset_new : forall (d : list (K * V)) k v,
    dget eqb d k = None -> length (dset eqb d k v) = S (length d).
  Proof.
    intros. rewrite dset_new by assumption. rewrite app_length. simpl. lia.
  Qed.

  Lemma length_dset_old : forall (d : list (K * V)) k v,
    dget eqb d k <> None -> length (dset eqb d k v) = length d.
  Proof.
    intros d k v H. rewrite <- (map_length fst (dset eqb d k v)).
    rewrite <- (map_length fst d). f_equal. apply dset_keys_old; exact H.
  Qed.

  Lemma dget_ddel : forall (d : list (K * V)) k k',
    NoDup (dkeys d) ->
    dget eqb (ddel eqb d k) k' = if eqb k' k then None else dget eqb d k'.
  Proof.
    induction d as [|[k0 v0] d IH]; intros k k' ND; simpl.
    - destruct (eqb k' k); reflexivity.
    - inversion ND as [|? ? Hn ND']; subst.
      destruct (eqb_spec k k0); simpl.
      + subst. destruct (eqb_spec k' k0); [|reflexivity].
        subst. apply dget_None_notin. exact Hn.
      + rewrite IH by assumption. destruct (eqb_spec k' k0); [|reflexivity].
        destruct (eqb_spec k' k); congruence.
  Qed.

  Lemma ddel_incl : forall (d : list (K * V)) k x, In x (ddel eqb d k) -> In x d.
  Proof.
    induction d as [|[k0 v0] d IH]; intros k x; simpl; [tauto|].
    destruct (eqb k k0); simpl; [auto|]. intros [H|H]; eauto.
  Qed.

  Lemma ddel_NoDup : forall (d : list (K * V)) k,
    NoDup (dkeys d) -> NoDup (dkeys (ddel eqb d k)).
  Proof.
    induction d as [|[k0 v0] d IH]; intros k ND; simpl; [constructor|].
    inversion ND as [|? ? Hn ND']; subst.
    destruct (eqb k k0); [exact ND'|]. simpl. constructor; [|apply IH; exact ND'].
    intros H. apply Hn. unfold dkeys in *. apply in_map_iff in H.
    destruct H as [x [Hx1 Hx2]]. subst. apply in_map. eapply ddel_incl; eauto.
  Qed.
End DictFacts.

Lemma lower_ascii_idem : forall c, lower_ascii (lower_ascii c) = lower_ascii c.
Proof.
  intros [[] [] [] [] [] [] [] []]; reflexivity.
Qed.

Lemma upper_lower_ascii : forall c, upper_ascii (lower_ascii c) = upper_ascii c.
Proof.
  intros [[] [] [] [] [] [] [] []]; reflexivity.
Qed.

Lemma lower_upper_ascii : forall c, lower_ascii (upper_ascii c) = lower_ascii c.
Proof.
  intros [[] [] [] [] [] [] [] []]; reflexivity.
Qed.

Lemma lower_idem : forall s, lower (lower s) = lower s.
Proof.
  unfold lower. induction s as [|c s IH]; simpl; [reflexivity|].
  rewrite lower_ascii_idem, IH. reflexivity.
Qed.

Lemma upper_lower : forall s, upper (lower s) = upper s.
Proof.
  unfold lower, upper. induction s as [|c s IH]; simpl; [reflexivity|].
  rewrite upper_lower_ascii, IH. reflexivity.
Qed.

Lemma lower_upper : forall s, lower (upper s) = lower s.
Proof.
  unfold lower, upper. induction s as [|c s IH]; simpl; [reflexivity|].
  rewrite lower_upper_ascii, IH. reflexivity.
Qed.

(** Comparing in upper case or in lower case decides the same pairs. *)
Lemma upper_eq_iff_lower_eq : forall a b, upper a = upper b <-> lower a = lower b.
Proof.
  intros a b; split; intros H.
  - rewrite <- (lower_upper a), <- (lower_upper b), H. reflexivity.
  - rewrite <- (upper_lower a), <- (upper_lower b), H. reflexivity.
Qed.
