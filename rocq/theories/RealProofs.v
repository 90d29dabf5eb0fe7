(** Second differences of smooth functions, rational approximations of real ones. *)
From Coq Require Import Reals Qreals Lra Lia.
From Verif Require Import Base VectorModel MatrixModel HPSModel FloatSpec RealSpec.
From Verif Require Import FloatProofs2.
Local Open Scope R_scope.

Lemma abs_between x b : Rabs x <= b -> - b <= x <= b.
Proof. intros H. pose proof (Rle_abs x). pose proof (Rle_abs (- x)). rewrite Rabs_Ropp in *. lra. Qed.

(** ** Functions that start at zero and grow *)
Lemma grow f f' d : (forall t, 0 <= t <= d -> derivable_pt_lim f t (f' t)) -> f 0 = 0 ->
  (forall t, 0 <= t <= d -> 0 <= f' t) -> forall t, 0 <= t <= d -> 0 <= f t.
Proof.
  intros HD H0 HP t (T0 & T1). destruct (Req_dec t 0) as [->|N]; [lra|].
  destruct (MVT_cor2 f f' 0 t) as (c & E & C0 & C1); [lra|intros c Hc; apply HD; lra|].
  rewrite H0 in E. assert (0 <= f' c) by (apply HP; lra). replace (f t) with (f' c * t) by lra. apply Rmult_le_pos; lra.
Qed.

Lemma shift_plus f f' x t : derivable_pt_lim f (x + t) (f' (x + t)) -> derivable_pt_lim (fun s => f (x + s)) t (f' (x + t)).
Proof.
  intros H. replace (f' (x + t)) with (f' (x + t) * (0 + 1)) by ring. apply (derivable_pt_lim_comp (fun s => x + s) f); [|exact H].
  apply (derivable_pt_lim_plus (fct_cte x) id); [apply derivable_pt_lim_const|apply derivable_pt_lim_id].
Qed.
Lemma shift_minus f f' x t : derivable_pt_lim f (x - t) (f' (x - t)) -> derivable_pt_lim (fun s => f (x - s)) t (- f' (x - t)).
Proof.
  intros H. replace (- f' (x - t)) with (f' (x - t) * (0 - 1)) by ring. apply (derivable_pt_lim_comp (fun s => x - s) f); [|exact H].
  apply (derivable_pt_lim_minus (fct_cte x) id); [apply derivable_pt_lim_const|apply derivable_pt_lim_id].
Qed.
Lemma lim_ext f g t l : (forall s, f s = g s) -> derivable_pt_lim f t l -> derivable_pt_lim g t l.
Proof. intros H D e He. destruct (D e He) as (d & Hd). exists d. intros h Hh Hl. rewrite <- !H. auto. Qed.
Lemma pow_lim k t : derivable_pt_lim (fun s => s ^ S k) t (INR (S k) * t ^ k).
Proof. apply (derivable_pt_lim_pow t (S k)). Qed.

(** The polynomial part: a s^k has derivative a k s^(k-1). *)
Lemma mono_lim a k t : derivable_pt_lim (fun s => a * s ^ S k) t (a * (INR (S k) * t ^ k)).
Proof. apply (derivable_pt_lim_scal (fun s => s ^ S k) a t). apply pow_lim. Qed.

Section Second.
Context (f f1 f2 f3 f4 : R -> R) (x d M2 M4 : R) (Hd : 0 <= d).
Context (H4 : four_times f f1 f2 f3 f4 (x - d) (x + d)).
Context (B2 : forall t, x - d <= t <= x + d -> Rabs (f2 t) <= M2) (B4 : forall t, x - d <= t <= x + d -> Rabs (f4 t) <= M4).

Lemma even_lim g g' t : 0 <= t <= d -> (forall s, x - d <= s <= x + d -> derivable_pt_lim g s (g' s)) ->
  derivable_pt_lim (fun s => g (x + s) + g (x - s)) t (g' (x + t) - g' (x - t)).
Proof.
  intros Ht H. replace (g' (x + t) - g' (x - t)) with (g' (x + t) + - g' (x - t)) by ring.
  apply (derivable_pt_lim_plus (fun s => g (x + s)) (fun s => g (x - s))); [apply shift_plus|apply shift_minus]; apply H; lra.
Qed.
Lemma odd_lim g g' t : 0 <= t <= d -> (forall s, x - d <= s <= x + d -> derivable_pt_lim g s (g' s)) ->
  derivable_pt_lim (fun s => g (x + s) - g (x - s)) t (g' (x + t) + g' (x - t)).
Proof.
  intros Ht H. replace (g' (x + t) + g' (x - t)) with (g' (x + t) - - g' (x - t)) by ring.
  apply (derivable_pt_lim_minus (fun s => g (x + s)) (fun s => g (x - s))); [apply shift_plus|apply shift_minus]; apply H; lra.
Qed.

Lemma second_small : Rabs (f (x + d) + f (x - d) - 2 * f x) <= M2 * (d * d).
Proof.
  assert (U : forall sg, sg = 1 \/ sg = -1 -> 0 <= M2 * d ^ 2 + sg * (f (x + d) + f (x - d)) - sg * (2 * f x)).
  { intros sg Hs.
    assert (A1 : forall t, 0 <= t <= d -> 0 <= (2 * M2) * t ^ 1 + sg * (f1 (x + t) - f1 (x - t))).
    { apply (grow _ (fun t => 2 * M2 * (INR 1 * t ^ 0) + sg * (f2 (x + t) + f2 (x - t)))).
      - intros t Ht. apply (derivable_pt_lim_plus (fun s => 2 * M2 * s ^ 1) (fun s => sg * (f1 (x + s) - f1 (x - s)))); [apply (mono_lim (2 * M2) 0)|].
        apply (derivable_pt_lim_scal (fun s => f1 (x + s) - f1 (x - s))). apply odd_lim; auto. intros s Hs'. apply (H4 s Hs').
      - rewrite Rplus_0_r, Rminus_0_r. ring.
      - intros t Ht. cbn [INR pow]. pose proof (B2 (x + t) ltac:(lra)) as P. pose proof (B2 (x - t) ltac:(lra)) as Q.
        apply abs_between in P, Q. destruct Hs as [-> | ->]; lra. }
    apply (grow (fun t => M2 * t ^ 2 + sg * (f (x + t) + f (x - t)) - sg * (2 * f x)) (fun t => (2 * M2) * t ^ 1 + sg * (f1 (x + t) - f1 (x - t))) d); [| |exact A1|lra].
    - intros t Ht. replace (2 * M2 * t ^ 1 + sg * (f1 (x + t) - f1 (x - t))) with (M2 * (INR 2 * t ^ 1) + sg * (f1 (x + t) - f1 (x - t)) - 0) by (cbn [INR]; ring).
      apply (derivable_pt_lim_minus (fun s => M2 * s ^ 2 + sg * (f (x + s) + f (x - s))) (fct_cte (sg * (2 * f x)))); [|apply derivable_pt_lim_const].
      apply (derivable_pt_lim_plus (fun s => M2 * s ^ 2) (fun s => sg * (f (x + s) + f (x - s)))); [apply (mono_lim M2 1)|].
      apply (derivable_pt_lim_scal (fun s => f (x + s) + f (x - s))). apply even_lim; auto. intros s Hs'. apply (H4 s Hs').
    - rewrite Rplus_0_r, Rminus_0_r. ring. }
  pose proof (U 1 (or_introl eq_refl)). pose proof (U (-1) (or_intror eq_refl)). replace (d * d) with (d ^ 2) by ring. apply Rabs_le. lra.
Qed.

Lemma second_close : Rabs (f (x + d) + f (x - d) - 2 * f x - d * d * f2 x) <= M4 / 12 * (d * d * (d * d)).
Proof.
  assert (U : forall sg, sg = 1 \/ sg = -1 -> 0 <= M4 / 12 * d ^ 4 + sg * (f (x + d) + f (x - d)) - sg * (2 * f x) - sg * f2 x * d ^ 2).
  { intros sg Hs.
    assert (A1 : forall t, 0 <= t <= d -> 0 <= (2 * M4) * t ^ 1 + sg * (f3 (x + t) - f3 (x - t))).
    { apply (grow _ (fun t => 2 * M4 * (INR 1 * t ^ 0) + sg * (f4 (x + t) + f4 (x - t)))).
      - intros t Ht. apply (derivable_pt_lim_plus (fun s => 2 * M4 * s ^ 1) (fun s => sg * (f3 (x + s) - f3 (x - s)))); [apply (mono_lim (2 * M4) 0)|].
        apply (derivable_pt_lim_scal (fun s => f3 (x + s) - f3 (x - s))). apply odd_lim; auto. intros s Hs'. apply (H4 s Hs').
      - rewrite Rplus_0_r, Rminus_0_r. ring.
      - intros t Ht. cbn [INR pow]. pose proof (B4 (x + t) ltac:(lra)) as P. pose proof (B4 (x - t) ltac:(lra)) as Q.
        apply abs_between in P, Q. destruct Hs as [-> | ->]; lra. }
    assert (A2 : forall t, 0 <= t <= d -> 0 <= M4 * t ^ 2 + sg * (f2 (x + t) + f2 (x - t)) - sg * (2 * f2 x)).
    { apply (grow _ (fun t => (2 * M4) * t ^ 1 + sg * (f3 (x + t) - f3 (x - t)))); [| |exact A1].
      - intros t Ht. replace (2 * M4 * t ^ 1 + sg * (f3 (x + t) - f3 (x - t))) with (M4 * (INR 2 * t ^ 1) + sg * (f3 (x + t) - f3 (x - t)) - 0) by (cbn [INR]; ring).
        apply (derivable_pt_lim_minus (fun s => M4 * s ^ 2 + sg * (f2 (x + s) + f2 (x - s))) (fct_cte (sg * (2 * f2 x)))); [|apply derivable_pt_lim_const].
        apply (derivable_pt_lim_plus (fun s => M4 * s ^ 2) (fun s => sg * (f2 (x + s) + f2 (x - s)))); [apply (mono_lim M4 1)|].
        apply (derivable_pt_lim_scal (fun s => f2 (x + s) + f2 (x - s))). apply even_lim; auto. intros s Hs'. apply (H4 s Hs').
      - rewrite Rplus_0_r, Rminus_0_r. ring. }
    assert (A3 : forall t, 0 <= t <= d -> 0 <= M4 / 3 * t ^ 3 + sg * (f1 (x + t) - f1 (x - t)) - sg * (2 * f2 x) * t ^ 1).
    { apply (grow _ (fun t => M4 * t ^ 2 + sg * (f2 (x + t) + f2 (x - t)) - sg * (2 * f2 x))); [| |exact A2].
      - intros t Ht. replace (M4 * t ^ 2 + sg * (f2 (x + t) + f2 (x - t)) - sg * (2 * f2 x)) with (M4 / 3 * (INR 3 * t ^ 2) + sg * (f2 (x + t) + f2 (x - t)) - sg * (2 * f2 x) * (INR 1 * t ^ 0)) by (cbn [INR]; field).
        apply (derivable_pt_lim_minus (fun s => M4 / 3 * s ^ 3 + sg * (f1 (x + s) - f1 (x - s))) (fun s => sg * (2 * f2 x) * s ^ 1)); [|apply (mono_lim (sg * (2 * f2 x)) 0)].
        apply (derivable_pt_lim_plus (fun s => M4 / 3 * s ^ 3) (fun s => sg * (f1 (x + s) - f1 (x - s)))); [apply (mono_lim (M4 / 3) 2)|].
        apply (derivable_pt_lim_scal (fun s => f1 (x + s) - f1 (x - s))). apply odd_lim; auto. intros s Hs'. apply (H4 s Hs').
      - rewrite Rplus_0_r, Rminus_0_r. ring. }
    apply (grow (fun t => M4 / 12 * t ^ 4 + sg * (f (x + t) + f (x - t)) - sg * (2 * f x) - sg * f2 x * t ^ 2)
      (fun t => M4 / 3 * t ^ 3 + sg * (f1 (x + t) - f1 (x - t)) - sg * (2 * f2 x) * t ^ 1) d); [| |exact A3|lra].
    - intros t Ht. replace (M4 / 3 * t ^ 3 + sg * (f1 (x + t) - f1 (x - t)) - sg * (2 * f2 x) * t ^ 1)
        with (M4 / 12 * (INR 4 * t ^ 3) + sg * (f1 (x + t) - f1 (x - t)) - 0 - sg * f2 x * (INR 2 * t ^ 1)) by (cbn [INR]; field).
      apply (derivable_pt_lim_minus (fun s => M4 / 12 * s ^ 4 + sg * (f (x + s) + f (x - s)) - sg * (2 * f x)) (fun s => sg * f2 x * s ^ 2)); [|apply (mono_lim (sg * f2 x) 1)].
      apply (derivable_pt_lim_minus (fun s => M4 / 12 * s ^ 4 + sg * (f (x + s) + f (x - s))) (fct_cte (sg * (2 * f x)))); [|apply derivable_pt_lim_const].
      apply (derivable_pt_lim_plus (fun s => M4 / 12 * s ^ 4) (fun s => sg * (f (x + s) + f (x - s)))); [apply (mono_lim (M4 / 12) 3)|].
      apply (derivable_pt_lim_scal (fun s => f (x + s) + f (x - s))). apply even_lim; auto. intros s Hs'. apply (H4 s Hs').
    - rewrite Rplus_0_r, Rminus_0_r. ring. }
  pose proof (U 1 (or_introl eq_refl)). pose proof (U (-1) (or_intror eq_refl)). replace (d * d * (d * d)) with (d ^ 4) by ring.
  replace (d * d) with (d ^ 2) by ring. apply Rabs_le. lra.
Qed.
End Second.

(** ** Rational values near real ones *)
Definition rational (e r : R) : Qc := Q2Qc (up (r * IZR (up (/ e))) # Z.to_pos (up (/ e))).
Lemma rational_near e r : 0 < e -> Rabs (qval (rational e r) - r) <= e.
Proof.
  intros He. pose proof (Rinv_0_lt_compat e He) as Ip. destruct (archimed (/ e)) as (N1 & _). set (N := up (/ e)) in *.
  assert (NP : (0 < N)%Z) by (apply lt_IZR; lra). assert (NR : 0 < IZR N) by (apply IZR_lt; exact NP).
  unfold rational. fold N. destruct (archimed (r * IZR N)) as (K1 & K2). set (K := up (r * IZR N)) in *.
  unfold qval. rewrite (Qeq_eqR _ (K # Z.to_pos N)) by (apply Qred_correct). unfold Q2R. cbn [Qnum Qden]. rewrite Z2Pos.id by exact NP.
  assert (NE : / IZR N <= e). { rewrite <- (Rinv_inv e). apply Rinv_le_contravar; lra. }
  assert (I0 : 0 < / IZR N) by (apply Rinv_0_lt_compat; exact NR).
  apply Rabs_le.
  replace (IZR K * / IZR N - r) with ((IZR K - r * IZR N) * / IZR N) by (field; lra).
  assert (K3 : 0 <= IZR K - r * IZR N <= 1) by lra. clear K1 K2. revert K3. generalize (IZR K - r * IZR N). intros k K3. set (i := / IZR N) in *. clearbody i. split; nra.
Qed.
Lemma rational_above e r : 0 < e -> exists q : Qc, r <= qval q <= r + e.
Proof.
  intros He. exists (rational (e / 2) (r + e / 2)). pose proof (rational_near (e / 2) (r + e / 2) ltac:(lra)) as H. apply abs_between in H. lra.
Qed.
