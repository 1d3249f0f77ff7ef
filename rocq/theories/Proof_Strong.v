(** Mean-square errors: the algebra of second moments, and from local to global errors. *)
From Coq Require Import Reals List Lra Lia FunctionalExtensionality.
From Verif Require Import Spec_Strong.
Import ListNotations.
Open Scope R_scope.

(** * Sums *)

Lemma total_ext {A : Type} (l : list A) (f g : A -> R) : (forall a, In a l -> f a = g a) -> total l f = total l g.
Proof. unfold total. induction l as [|a l IH]; cbn; intros H; [reflexivity|]. rewrite H, IH; auto. Qed.
Lemma total_linear {A : Type} (l : list A) (a b : R) (f g : A -> R) :
  total l (fun x => a * f x + b * g x) = a * total l f + b * total l g.
Proof. unfold total. induction l as [|x l IH]; cbn; [ring|]. rewrite IH. ring. Qed.
Lemma total_plus {A : Type} (l : list A) (f g : A -> R) : total l (fun x => f x + g x) = total l f + total l g.
Proof. unfold total. induction l as [|x l IH]; cbn; [ring|]. rewrite IH. ring. Qed.
Lemma total_scale {A : Type} (l : list A) (c : R) (f : A -> R) : total l (fun x => c * f x) = c * total l f.
Proof. unfold total. induction l as [|x l IH]; cbn; [ring|]. rewrite IH. ring. Qed.
Lemma total_le {A : Type} (l : list A) (f g : A -> R) : (forall a, In a l -> f a <= g a) -> total l f <= total l g.
Proof.
  induction l as [|a l IH]; cbn; intros H; [lra|]. pose proof (H a (or_introl eq_refl)).
  pose proof (IH (fun b Hb => H b (or_intror Hb))). unfold total in *. lra.
Qed.
Lemma total_nonneg {A : Type} (l : list A) (f : A -> R) : (forall a, In a l -> 0 <= f a) -> 0 <= total l f.
Proof. intros H. apply Rle_trans with (total l (fun _ => 0)); [|now apply total_le]. clear. induction l; cbn; unfold total in *; lra. Qed.
Lemma total_zero {A : Type} (l : list A) (f : A -> R) : (forall a, In a l -> f a = 0) -> total l f = 0.
Proof. induction l as [|a l IH]; cbn; intros H; [reflexivity|]. rewrite H by auto. unfold total in IH. rewrite IH by auto. ring. Qed.
Lemma total_member {A : Type} (l : list A) (f : A -> R) (a : A) : (forall a, 0 <= f a) -> In a l -> f a <= total l f.
Proof.
  intros Hf. induction l as [|b l IH]; cbn; [easy|]. intros [<-|Ha].
  - pose proof (total_nonneg l f (fun a _ => Hf a)). unfold total in *. lra.
  - pose proof (IH Ha). pose proof (Hf b). unfold total in *. lra.
Qed.

(** * Second moments *)

Section Moments.
  Context {Omega K I : Type} (P : space Omega) (HP : probability P) (is : list I).
  Notation vec := (Omega -> I -> R).

  Lemma mean_ext f g : (forall w, f w = g w) -> mean P f = mean P g.
  Proof. intros H. f_equal. now apply functional_extensionality. Qed.
  Lemma integrable_const c : integrable P (fun _ => c).
  Proof.
    apply integrable_ext with (f := fun _ => c * 1); auto; [|intros; ring].
    apply (known_product P HP 0); apply known_const; auto.
  Qed.
  Lemma mean_const c : mean P (fun _ => c) = c.
  Proof.
    rewrite (mean_ext _ (fun _ => c * 1 + 0 * 1)) by (intros; ring).
    rewrite mean_linear by (auto using integrable_const). rewrite mean_one by auto. ring.
  Qed.
  Lemma known_plus t f g : known P t f -> known P t g -> known P t (fun w => f w + g w).
  Proof.
    intros Hf Hg. apply known_ext with (f := fun w => 1 * f w + 1 * g w); auto; [now apply known_linear|]. intros; ring.
  Qed.
  Lemma known_scale t c f : known P t f -> known P t (fun w => c * f w).
  Proof.
    intros Hf. apply known_ext with (f := fun w => c * f w + 0 * f w); auto; [now apply known_linear|]. intros; ring.
  Qed.
  Lemma known_total {A : Type} t (l : list A) (f : A -> Omega -> R) :
    (forall a, In a l -> known P t (f a)) -> known P t (fun w => total l (fun a => f a w)).
  Proof.
    induction l as [|a l IH]; cbn; intros H; [now apply known_const|].
    apply known_plus; [apply H; auto|]. apply IH. auto.
  Qed.
  Lemma integrable_plus f g : integrable P f -> integrable P g -> integrable P (fun w => f w + g w).
  Proof.
    intros Hf Hg. apply integrable_ext with (f := fun w => 1 * f w + 1 * g w); auto; [now apply integrable_linear|]. intros; ring.
  Qed.
  Lemma mean_plus f g : integrable P f -> integrable P g -> mean P (fun w => f w + g w) = mean P f + mean P g.
  Proof.
    intros Hf Hg. rewrite (mean_ext _ (fun w => 1 * f w + 1 * g w)) by (intros; ring). rewrite mean_linear by auto. ring.
  Qed.
  Lemma integrable_total {A : Type} (l : list A) (f : A -> Omega -> R) :
    (forall a, In a l -> integrable P (f a)) -> integrable P (fun w => total l (fun a => f a w)).
  Proof.
    induction l as [|a l IH]; cbn; intros H; [now apply integrable_const|].
    apply integrable_plus; [apply H; auto|]. apply IH. auto.
  Qed.
  Lemma mean_total {A : Type} (l : list A) (f : A -> Omega -> R) :
    (forall a, In a l -> integrable P (f a)) -> mean P (fun w => total l (fun a => f a w)) = total l (fun a => mean P (f a)).
  Proof.
    induction l as [|a l IH]; intros H; [apply (mean_const 0)|].
    cbn. change (fold_right (fun a0 acc => mean P (f a0) + acc) 0 l) with (total l (fun a => mean P (f a))).
    rewrite <- IH by (intros; apply H; now right).
    rewrite <- mean_plus; [reflexivity|apply H; now left|]. apply integrable_total. intros; apply H; now right.
  Qed.

  Definition ip (X Z : vec) : R := total is (fun i => mean P (fun w => X w i * Z w i)).
  Definition comb (a : R) (X : vec) (b : R) (Z : vec) : vec := fun w i => a * X w i + b * Z w i.

  Lemma ms_ip X : mean_square P is X = ip X X.
  Proof. apply total_ext. intros i _. apply mean_ext. intros w. ring. Qed.
  Lemma ip_ext X X' Z Z' : (forall w i, In i is -> X w i = X' w i) -> (forall w i, In i is -> Z w i = Z' w i) -> ip X Z = ip X' Z'.
  Proof. intros H H'. apply total_ext. intros i Hi. apply mean_ext. intros w. now rewrite H, H'. Qed.
  Lemma ms_ext X X' : (forall w i, In i is -> X w i = X' w i) -> mean_square P is X = mean_square P is X'.
  Proof. intros H. rewrite !ms_ip. now apply ip_ext. Qed.
  Lemma ms_neg X : mean_square P is (fun w i => -1 * X w i) = mean_square P is X.
  Proof. apply total_ext. intros i _. apply mean_ext. intros w. ring. Qed.
  Lemma ip_sym X Z : ip X Z = ip Z X.
  Proof. apply total_ext. intros i _. apply mean_ext. intros w. ring. Qed.
  Lemma kv_ext t X X' : known_vector P is t X -> (forall w i, In i is -> X w i = X' w i) -> known_vector P is t X'.
  Proof. intros H E i Hi. apply known_ext with (f := fun w => X w i); auto. Qed.
  Lemma kv_comb t a X b Z : known_vector P is t X -> known_vector P is t Z -> known_vector P is t (comb a X b Z).
  Proof. intros HX HZ i Hi. apply (known_linear P HP t a b (fun w => X w i) (fun w => Z w i)); auto. Qed.
  Lemma kv_later s t X : s <= t -> known_vector P is s X -> known_vector P is t X.
  Proof. intros Hst H i Hi. apply known_later with s; auto. Qed.
  Lemma ip_comb t a X b Z U : known_vector P is t X -> known_vector P is t Z -> known_vector P is t U ->
    ip (comb a X b Z) U = a * ip X U + b * ip Z U.
  Proof.
    intros HX HZ HU. unfold ip. rewrite <- total_linear. apply total_ext. intros i Hi.
    rewrite <- mean_linear by (auto; apply (known_product P HP t); auto).
    apply mean_ext. intros w. unfold comb. ring.
  Qed.
  Lemma ip_nonneg t X : known_vector P is t X -> 0 <= ip X X.
  Proof.
    intros HX. apply total_nonneg. intros i Hi. rewrite <- (mean_const 0). apply mean_monotone; auto using integrable_const.
    - apply (known_product P HP t); auto.
    - intros w. pose proof (Rle_0_sqr (X w i)). now unfold Rsqr in *.
  Qed.
  Lemma ip_square t a X b Z : known_vector P is t X -> known_vector P is t Z ->
    ip (comb a X b Z) (comb a X b Z) = a * a * ip X X + 2 * a * b * ip X Z + b * b * ip Z Z.
  Proof.
    intros HX HZ. rewrite (ip_comb t) by (auto using kv_comb).
    rewrite (ip_sym X), (ip_sym Z), !(ip_comb t) by (auto using kv_comb). rewrite (ip_sym Z X). ring.
  Qed.
  Lemma ip_bound t X Z : known_vector P is t X -> known_vector P is t Z -> 2 * ip X Z <= ip X X + ip Z Z.
  Proof.
    intros HX HZ. pose proof (ip_nonneg t _ (kv_comb t 1 X (-1) Z HX HZ)) as H. rewrite (ip_square t) in H by auto. lra.
  Qed.

  (** Pointwise inequalities between squares carry over. *)
  Lemma integrable_squares t X : known_vector P is t X -> integrable P (fun w => total is (fun i => X w i ^ 2)).
  Proof.
    intros HX. apply (integrable_total is (fun i w => X w i ^ 2)). intros i Hi.
    apply integrable_ext with (f := fun w => X w i * X w i); auto; [|intros; ring]. apply (known_product P HP t); auto.
  Qed.
  Lemma mean_squares t X : known_vector P is t X -> mean P (fun w => total is (fun i => X w i ^ 2)) = mean_square P is X.
  Proof.
    intros HX. apply (mean_total is (fun i w => X w i ^ 2)). intros i Hi.
    apply integrable_ext with (f := fun w => X w i * X w i); auto; [|intros; ring]. apply (known_product P HP t); auto.
  Qed.
  Lemma ms_le t (ks : list K) X (G : K -> vec) Z c d :
    known_vector P is t X -> (forall k, In k ks -> known_vector P is t (G k)) -> known_vector P is t Z ->
    (forall w, total is (fun i => X w i ^ 2) + total ks (fun k => total is (fun i => G k w i ^ 2)) <= c * total is (fun i => Z w i ^ 2) + d) ->
    mean_square P is X + total ks (fun k => mean_square P is (G k)) <= c * mean_square P is Z + d.
  Proof.
    intros HX HG HZ H.
    rewrite <- (mean_squares t X), <- (mean_squares t Z) by auto.
    rewrite (total_ext ks (fun k => mean_square P is (G k)) (fun k => mean P (fun w => total is (fun i => G k w i ^ 2))))
      by (intros k Hk; symmetry; apply (mean_squares t); auto).
    rewrite <- (mean_total ks (fun k w => total is (fun i => G k w i ^ 2))) by (intros k Hk; apply (integrable_squares t); auto).
    assert (HI : integrable P (fun w => total ks (fun k => total is (fun i => G k w i ^ 2))))
      by (apply (integrable_total ks (fun k w => total is (fun i => G k w i ^ 2))); intros k Hk; apply (integrable_squares t); auto).
    pose proof (integrable_squares t X HX) as HIX. pose proof (integrable_squares t Z HZ) as HIZ.
    rewrite <- mean_plus by auto.
    replace (c * mean P (fun w => total is (fun i => Z w i ^ 2)) + d)
      with (c * mean P (fun w => total is (fun i => Z w i ^ 2)) + d * mean P (fun _ => 1)) by (rewrite mean_one by auto; ring).
    rewrite <- mean_linear by (auto using integrable_const).
    apply mean_monotone; auto using integrable_plus, integrable_linear, integrable_const.
    intros w. specialize (H w). lra.
  Qed.

  (** * Brownian increments *)
  Section Noise.
    Context (ks0 : list K) (times : R -> Prop) (W : Omega -> R -> K -> R) (HW : brownian P ks0 times W) (s t : R).
    Hypothesis (Hs : times s) (Ht : times t) (Hst : s < t).

    Definition noise (ks : list K) (G : K -> vec) : vec := fun w i => total ks (fun k => G k w i * (W w t k - W w s k)).

    Lemma kv_noise1 k X : In k ks0 -> known_vector P is s X -> known_vector P is t (fun w i => X w i * (W w t k - W w s k)).
    Proof. intros Hk HX i Hi. apply (increment_known P ks0 times W HW s t k (fun w => X w i)); auto. Qed.
    Lemma kv_noise ks G : incl ks ks0 -> (forall k, In k ks -> known_vector P is s (G k)) -> known_vector P is t (noise ks G).
    Proof.
      intros Hks HG i Hi. apply (known_total t ks (fun k w => G k w i * (W w t k - W w s k))). intros k Hk.
      apply kv_noise1; auto.
    Qed.
    Lemma ip_centred k X Z : In k ks0 -> known_vector P is s X -> known_vector P is s Z ->
      ip X (fun w i => Z w i * (W w t k - W w s k)) = 0.
    Proof.
      intros Hk HX HZ. apply total_zero. intros i Hi.
      apply (increment_centred P ks0 times W HW s t k (fun w => X w i) (fun w => Z w i)); auto.
    Qed.
    Lemma ip_var k X Z : In k ks0 -> known_vector P is s X -> known_vector P is s Z ->
      ip (fun w i => X w i * (W w t k - W w s k)) (fun w i => Z w i * (W w t k - W w s k)) = (t - s) * ip X Z.
    Proof.
      intros Hk HX HZ. unfold ip. rewrite <- total_scale. apply total_ext. intros i Hi.
      apply (increment_variance P ks0 times W HW s t k (fun w => X w i) (fun w => Z w i)); auto.
    Qed.
    Lemma ip_uncor k l X Z : In k ks0 -> In l ks0 -> k <> l -> known_vector P is s X -> known_vector P is s Z ->
      ip (fun w i => X w i * (W w t k - W w s k)) (fun w i => Z w i * (W w t l - W w s l)) = 0.
    Proof.
      intros Hk Hl Hkl HX HZ. apply total_zero. intros i Hi.
      apply (increment_uncorrelated P ks0 times W HW s t k l (fun w => X w i) (fun w => Z w i)); auto.
    Qed.
    Lemma noise_cons k ks G : noise (k :: ks) G = comb 1 (fun w i => G k w i * (W w t k - W w s k)) 1 (noise ks G).
    Proof.
      apply functional_extensionality. intros w. apply functional_extensionality. intros i.
      unfold noise, comb. cbn. unfold total. ring.
    Qed.
    Lemma ip_zero_r X : known_vector P is t X -> ip X (fun _ _ => 0) = 0.
    Proof.
      intros HX. apply total_zero. intros i Hi. rewrite (mean_ext _ (fun _ => 0)) by (intros; ring). apply mean_const.
    Qed.
    Lemma ip_noise_centred ks X G : incl ks ks0 -> known_vector P is s X -> (forall k, In k ks -> known_vector P is s (G k)) ->
      ip X (noise ks G) = 0.
    Proof.
      intros Hks HX HG. assert (HX' : known_vector P is t X) by (apply kv_later with s; auto; lra).
      induction ks as [|k ks IH]; [now apply ip_zero_r|].
      rewrite noise_cons, ip_sym, (ip_comb t); auto.
      - rewrite (ip_sym _ X), ip_centred by (try apply Hks; try apply HG; cbn; auto).
        rewrite ip_sym, IH; [ring| |]; [intros x Hx; apply Hks; now right|intros; apply HG; now right].
      - apply kv_noise1; [apply Hks; now left|apply HG; now left].
      - apply kv_noise; [intros x Hx; apply Hks; now right|intros; apply HG; now right].
    Qed.
    Lemma ip_noise_uncor k ks X G : In k ks0 -> incl ks ks0 -> ~ In k ks -> known_vector P is s X ->
      (forall k, In k ks -> known_vector P is s (G k)) ->
      ip (fun w i => X w i * (W w t k - W w s k)) (noise ks G) = 0.
    Proof.
      intros Hk Hks Hn HX HG. pose proof (kv_noise1 k X Hk HX) as HX'.
      induction ks as [|l ks IH]; [now apply ip_zero_r|].
      rewrite noise_cons, ip_sym, (ip_comb t); auto.
      - rewrite (ip_sym _ (fun w i => X w i * _)), ip_uncor; auto.
        + rewrite ip_sym, IH; [ring| | |]; [intros x Hx; apply Hks; now right|intros Hx; apply Hn; now right|intros; apply HG; now right].
        + apply Hks; now left.
        + intros ->. apply Hn. now left.
        + apply HG; now left.
      - apply kv_noise1; [apply Hks; now left|apply HG; now left].
      - apply kv_noise; [intros x Hx; apply Hks; now right|intros; apply HG; now right].
    Qed.
    Lemma ip_noise ks G : incl ks ks0 -> NoDup ks -> (forall k, In k ks -> known_vector P is s (G k)) ->
      ip (noise ks G) (noise ks G) = (t - s) * total ks (fun k => mean_square P is (G k)).
    Proof.
      intros Hks Hd HG. induction ks as [|k ks IH].
      - cbn. rewrite Rmult_0_r. apply ip_zero_r. intros i Hi. apply (known_const P HP t 0).
      - assert (Hks' : incl ks ks0) by (intros x Hx; apply Hks; now right).
        assert (HG' : forall k, In k ks -> known_vector P is s (G k)) by (intros; apply HG; now right).
        inversion_clear Hd as [|? ? Hn Hd'].
        rewrite noise_cons, (ip_square t).
        + rewrite ip_var, ip_noise_uncor, IH; auto; try (apply Hks; now left); try (apply HG; now left).
          cbn. rewrite ms_ip. fold (total ks (fun k => mean_square P is (G k))). ring.
        + apply kv_noise1; [apply Hks; now left|apply HG; now left].
        + now apply kv_noise.
    Qed.
    (** The mean square of a known part plus noise *)
    Lemma ms_noise X G : NoDup ks0 -> known_vector P is s X -> (forall k, In k ks0 -> known_vector P is s (G k)) ->
      mean_square P is (comb 1 X 1 (noise ks0 G)) = mean_square P is X + (t - s) * total ks0 (fun k => mean_square P is (G k)).
    Proof.
      intros Hd HX HG. rewrite (ms_ip (comb _ _ _ _)), (ip_square t).
      - rewrite ip_noise_centred, ip_noise, ms_ip; auto using incl_refl. ring.
      - apply kv_later with s; auto; lra.
      - now apply kv_noise; auto using incl_refl.
    Qed.
  End Noise.
End Moments.

(** * From local to global errors *)
Lemma exp_step c d : 0 <= c * d -> 1 + c * d <= exp (c * d).
Proof. intros H. destruct (Req_dec (c * d) 0) as [->|Hn]; [rewrite exp_0; lra|]. left. apply exp_ineq1. lra. Qed.

(** One step of a discrete Gronwall inequality, from [t] to [u] *)
Lemma gronwall_step c Q t u T E E' : 0 <= c -> 0 <= Q -> t <= u <= T -> 0 <= E -> E' <= (1 + c * (u - t)) * E + Q * (u - t) ->
  exp (c * (T - u)) * (E' + Q * (T - u)) <= exp (c * (T - t)) * (E + Q * (T - t)).
Proof.
  intros Hc HQ Ht HE H.
  replace (c * (T - t)) with (c * (T - u) + c * (u - t)) by ring.
  rewrite exp_plus, (Rmult_assoc (exp _) (exp _)). apply Rmult_le_compat_l; [left; apply exp_pos|].
  assert (Hd : 0 <= c * (u - t)) by (apply Rmult_le_pos; lra). pose proof (exp_step c (u - t) Hd) as He.
  assert (H1 : 0 <= Q * (u - t)) by (apply Rmult_le_pos; lra). assert (H2 : 0 <= Q * (T - u)) by (apply Rmult_le_pos; lra).
  set (x := exp (c * (u - t))) in *.
  assert (A1 : (1 + c * (u - t)) * E <= x * E) by (apply Rmult_le_compat_r; lra).
  assert (A2 : 1 * (Q * (u - t)) <= x * (Q * (u - t))) by (apply Rmult_le_compat_r; lra).
  assert (A3 : 1 * (Q * (T - u)) <= x * (Q * (T - u))) by (apply Rmult_le_compat_r; lra).
  replace (x * (E + Q * (T - t))) with (x * E + x * (Q * (u - t)) + x * (Q * (T - u))) by ring. lra.
Qed.

Section Global.
  Context {Omega I : Type} (P : space Omega) (HP : probability P) (is : list I).
  Notation vec := (Omega -> I -> R).
  Context (times : R -> Prop) (step : R -> R -> vec -> vec) (x : R -> vec) (C M : R) (n : nat).
  Definition minus (X Z : vec) : vec := comb 1 X (-1) Z.

  (** The step keeps apart what was apart, up to [O(h)]. *)
  Definition stable (C : R) (s t : R) : Prop := forall X Z, known_vector P is s X -> known_vector P is s Z ->
    known_vector P is t (step s t X) /\
    mean_square P is (minus (step s t X) (step s t Z)) <= (1 + C * (t - s)) * mean_square P is (minus X Z) /\
    mean_square P is (minus (minus (step s t X) (step s t Z)) (minus X Z)) <= C * (t - s) * mean_square P is (minus X Z).
  Definition local_error (s t : R) : Prop :=
    mean_square P is (minus (x t) (step s t (x s))) <= M * (t - s) ^ S n /\
    forall phi, known_vector P is s phi ->
      ip P is phi (minus (x t) (step s t (x s))) ^ 2 <= M * (t - s) ^ S (S n) * mean_square P is phi.

  Lemma amgm a u v : 0 <= u -> 0 <= v -> a ^ 2 <= u * v -> 2 * a <= u + v.
  Proof.
    intros Hu Hv H. destruct (Rle_dec (2 * a) (u + v)) as [Hle|Hgt]; [auto|]. apply Rnot_le_lt in Hgt.
    assert (H1 : (u + v) * (u + v) < (2 * a) * (2 * a)) by (apply Rmult_le_0_lt_compat; lra).
    pose proof (Rle_0_sqr (u - v)) as H2. unfold Rsqr in H2. cbn in H. lra.
  Qed.
  Lemma last_nonempty {A : Type} (l : list A) (a b : A) : l <> [] -> last l a = last l b.
  Proof. induction l as [|c [|d l] IH]; intros H; [easy|reflexivity|]. change (last (d :: l) a = last (d :: l) b). apply IH. discriminate. Qed.
  Lemma last_cons' {A : Type} (l : list A) (a b : A) : last (b :: l) a = last l b.
  Proof. destruct l as [|c l]; [reflexivity|]. change (last (c :: l) a = last (c :: l) b). now apply last_nonempty. Qed.

  Lemma one_step s t X : 0 <= C -> 0 <= M -> s < t -> stable C s t -> local_error s t ->
    known_vector P is s (x s) -> known_vector P is t (x t) -> known_vector P is s X ->
    mean_square P is (minus (x t) (step s t X)) <= (1 + (1 + 2 * C) * (t - s)) * mean_square P is (minus (x s) X) + 3 * M * (t - s) ^ S n.
  Proof.
    intros HC HM Hst HS [Hl1 Hl2] Hxs Hxt HX.
    set (r := minus (x t) (step s t (x s))) in *. set (d := minus (step s t (x s)) (step s t X)).
    set (e := minus (x s) X). set (z := minus d e).
    destruct (HS (x s) X Hxs HX) as (HkPx & Hd & Hz). destruct (HS X X HX HX) as (HkPX & _ & _).
    fold d in Hd, Hz. fold e in Hd, Hz. fold z in Hz.
    assert (Ke : known_vector P is s e) by (apply kv_comb; auto).
    assert (Ke' : known_vector P is t e) by (apply kv_later with s; auto; lra).
    assert (Kr : known_vector P is t r) by (apply kv_comb; auto).
    assert (Kd : known_vector P is t d) by (apply kv_comb; auto).
    assert (Kz : known_vector P is t z) by (apply kv_comb; auto).
    rewrite (ms_ext P is _ (comb 1 r 1 d)) by (intros; unfold r, d, minus, comb; ring).
    rewrite ms_ip, (ip_square P HP is t) by auto.
    assert (E : ip P is r d = ip P is e r + ip P is r z).
    { rewrite (ip_sym P is r d), (ip_ext P is d (comb 1 e 1 z) r r) by (intros; unfold z, e, minus, comb; ring || reflexivity).
      rewrite (ip_comb P HP is t) by auto. rewrite (ip_sym P is z r). ring. }
    pose proof (ip_bound P HP is t r z Kr Kz) as Hrz. rewrite <- !ms_ip in Hrz.
    specialize (Hl2 e Ke). set (h := t - s) in *. assert (Hh : 0 < h) by (unfold h; lra).
    assert (HE : 0 <= mean_square P is e) by (rewrite ms_ip; apply (ip_nonneg P HP is s); auto).
    assert (Hre : 2 * ip P is e r <= h * mean_square P is e + M * h ^ S n).
    { assert (Hu : 0 <= h * mean_square P is e) by (apply Rmult_le_pos; lra).
      assert (Hv : 0 <= M * h ^ S n) by (apply Rmult_le_pos; auto; apply pow_le; lra).
      apply amgm; auto. eapply Rle_trans; [exact Hl2|]. right. change (h ^ S (S n)) with (h * h ^ S n). ring. }
    rewrite <- !ms_ip. rewrite E. lra.
  Qed.

  (** Steps along a list of times *)
  Fixpoint iterate (t : R) (ts : list R) (X : vec) : vec :=
    match ts with [] => X | t1 :: ts => iterate t1 ts (step t t1 X) end.

  Lemma grid_last t ts H : grid t ts H -> t <= last ts t.
  Proof.
    revert t. induction ts as [|t1 ts IH]; intros t; [cbn; lra|]. intros [H1 H2]. specialize (IH _ H2).
    destruct ts as [|t2 ts]; [cbn; lra|]. change (last (t1 :: t2 :: ts) t) with (last (t2 :: ts) t).
    rewrite (last_nonempty (t2 :: ts) t t1) by discriminate. lra.
  Qed.

  Lemma global ts : forall t X H, 0 <= C -> 0 <= M -> 0 <= H -> grid t ts H -> (forall u, In u (t :: ts) -> times u) ->
    (forall s u, times s -> times u -> s < u -> u <= s + H -> stable C s u /\ local_error s u) ->
    (forall u, times u -> known_vector P is u (x u)) -> known_vector P is t X ->
    mean_square P is (minus (x (last ts t)) (iterate t ts X)) <=
      exp ((1 + 2 * C) * (last ts t - t)) * (mean_square P is (minus (x t) X) + 3 * M * H ^ n * (last ts t - t)).
  Proof.
    induction ts as [|t1 ts IH]; intros t X H HC HM HH Hg Ht Hl Hx HX.
    - cbn [last iterate]. replace (t - t) with 0 by ring. rewrite !Rmult_0_r, exp_0. lra.
    - destruct Hg as [Hg1 Hg2]. rewrite last_cons'. cbn [iterate].
      assert (T0 : times t) by (apply Ht; now left). assert (T1 : times t1) by (apply Ht; cbn; auto).
      destruct (Hl t t1 T0 T1 ltac:(lra) ltac:(lra)) as [HS HL].
      eapply Rle_trans; [apply (IH t1 (step t t1 X) H); auto|].
      + intros u Hu. apply Ht. now right.
      + apply (HS X X); auto.
      + pose proof (one_step t t1 X HC HM ltac:(lra) HS HL (Hx _ T0) (Hx _ T1) HX) as H1.
        pose proof (grid_last _ _ _ Hg2) as Hlast. set (T := last ts t1) in *.
        set (h := t1 - t) in *. assert (Hh : 0 < h <= H) by (unfold h; lra).
        assert (Hpow : h ^ S n <= h * H ^ n).
        { cbn [pow]. apply Rmult_le_compat_l; [lra|]. apply pow_incr. lra. }
        set (E := mean_square P is (minus (x t) X)) in *.
        assert (HE : 0 <= E) by (unfold E; rewrite ms_ip; apply (ip_nonneg P HP is t); apply kv_comb; auto).
        assert (HHn : 0 <= H ^ n) by (apply pow_le; lra).
        apply (gronwall_step (1 + 2 * C) (3 * M * H ^ n)); auto; try lra.
        * apply Rmult_le_pos; lra.
        * eapply Rle_trans; [exact H1|]. fold h. apply Rplus_le_compat_l.
          replace (3 * M * H ^ n * h) with (3 * M * (h * H ^ n)) by ring. apply Rmult_le_compat_l; lra.
  Qed.
End Global.
