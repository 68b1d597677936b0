(** Small lemmas about [derivable_pt_lim]. *)
From Coq Require Import Reals Lra.
From Verif Require Import Base Newton NewtonFacts.
Open Scope R_scope.

Lemma dlim_ext : forall f g x l, (forall y, f y = g y) -> derivable_pt_lim f x l -> derivable_pt_lim g x l.
Proof. intros f g x l E D eps Heps. destruct (D eps Heps) as [d Hd]. exists d. intros h H0 H1. rewrite <- !E. apply Hd; assumption. Qed.

Lemma dlim_near : forall f g x l r, 0 < r -> (forall y, Rabs (y - x) < r -> f y = g y) -> derivable_pt_lim f x l -> derivable_pt_lim g x l.
Proof.
  intros f g x l r Hr E D eps Heps. destruct (D eps Heps) as [d Hd].
  assert (M : 0 < Rmin d r) by (apply Rmin_glb_lt; [apply cond_pos|exact Hr]).
  exists (mkposreal _ M). intros h H0 H1. simpl in H1.
  assert (H2 : Rabs h < d) by (eapply Rlt_le_trans; [exact H1|apply Rmin_l]).
  assert (H3 : Rabs h < r) by (eapply Rlt_le_trans; [exact H1|apply Rmin_r]).
  rewrite <- !E; [apply Hd; assumption| |].
  - replace (x - x) with 0 by ring. rewrite Rabs_R0. exact Hr.
  - replace (x + h - x) with h by ring. exact H3.
Qed.

Lemma dlim_eq : forall f x l l', l = l' -> derivable_pt_lim f x l -> derivable_pt_lim f x l'.
Proof. intros f x l l' -> D. exact D. Qed.

(** Two branches that meet with the same value and the same slope. *)
Lemma dlim_glue : forall g h b l, g b = h b -> derivable_pt_lim g b l -> derivable_pt_lim h b l ->
  derivable_pt_lim (fun x => if Rlt_b x b then g x else h x) b l.
Proof.
  intros g h b l E Dg Dh eps Heps. destruct (Dg eps Heps) as [d1 H1]. destruct (Dh eps Heps) as [d2 H2].
  assert (M : 0 < Rmin d1 d2) by (apply Rmin_glb_lt; apply cond_pos).
  exists (mkposreal _ M). intros k H0 K. simpl in K.
  assert (K1 : Rabs k < d1) by (eapply Rlt_le_trans; [exact K|apply Rmin_l]).
  assert (K2 : Rabs k < d2) by (eapply Rlt_le_trans; [exact K|apply Rmin_r]).
  assert (B : Rlt_b b b = false) by (apply Rlt_b_false; lra). rewrite B.
  destruct (Rlt_b (b + k) b) eqn:C; [rewrite <- E; apply H1; assumption|apply H2; assumption].
Qed.

Lemma dlim_poly2 : forall a b c x, derivable_pt_lim (fun y => a * (y * y) + b * y + c) x (2 * a * x + b).
Proof.
  intros a b c x.
  assert (D := derivable_pt_lim_plus _ _ x _ _ (derivable_pt_lim_plus _ _ x _ _
     (derivable_pt_lim_scal _ a x _ (derivable_pt_lim_mult id id x 1 1 (derivable_pt_lim_id x) (derivable_pt_lim_id x)))
     (derivable_pt_lim_scal id b x 1 (derivable_pt_lim_id x))) (derivable_pt_lim_const c x)).
  unfold plus_fct, mult_real_fct, mult_fct, id, fct_cte in D.
  eapply dlim_eq; [|exact D]. ring.
Qed.

(** [f(k y)] for a constant [k]. *)
Lemma dlim_scale_arg : forall f k x l, derivable_pt_lim f (k * x) l -> derivable_pt_lim (fun y => f (k * y)) x (k * l).
Proof.
  intros f k x l D.
  assert (L : derivable_pt_lim (fun y => k * y) x k).
  { assert (E := derivable_pt_lim_scal id k x 1 (derivable_pt_lim_id x)). unfold mult_real_fct, id in E. eapply dlim_eq; [|exact E]. ring. }
  assert (C := derivable_pt_lim_comp _ f x _ _ L D). unfold comp in C. eapply dlim_eq; [|exact C]. ring.
Qed.

Lemma dlim_mult_const : forall f c x l, derivable_pt_lim f x l -> derivable_pt_lim (fun y => c * f y) x (c * l).
Proof. intros f c x l D. exact (derivable_pt_lim_scal f c x l D). Qed.
