(** The direct solver with a finite volume patch solver on a uniformly refined
    rectangle. *)
From Verif Require Import Base VectorModel MatrixModel LinSpec HPSModel HPSSpec FVModel FVSpec GlobalSpec StageSpec.
From Verif Require Import MatProofs MatProofs2 LinProofs HPSProofs HPSProofs3 HPSProofs4 HPSTree HPSTree2 HPSProps.
From Verif Require Import FVProofs FVProofs2 FVProofs3 FVMax FVJoin FVGlobal.

Lemma fresh_leaves load s : forall t, fresh load s t -> forall G f, subtree (QLeaf G f) s -> f = load G.
Proof.
  induction s as [G0 f0|a IHa b IHb c IHc d IHd]; intros [p|p ta tb tc td] H G f Hs; try contradiction.
  - destruct Hs as [E|[]]. inversion E. subst. destruct H as (_ & _ & <-). reflexivity.
  - destruct H as (_ & A & B & C & D). destruct Hs as [E|[Hs|[Hs|[Hs|Hs]]]]; [discriminate|eauto..].
Qed.

Section EndToEnd.
Context (m : nat) (Hm : m <> 0) (c : coefs) (HS : right_signs c).
Context (solve : grid -> list Qc -> list Qc -> res (list Qc)).
Context (Hsolve : forall G, oriented G -> gnx G = m -> gny G = m -> forall g f, length g = 4 * m -> length f = m * m ->
  exists u, solve G g f = Ok u /\ fv_solution c G g f u).

Theorem end_to_end l gesv load xl xu yl yu s t st g F :
  gesv_contract gesv -> (xl < xu)%Qc -> (yl < yu)%Qc ->
  let G := whole m l xl xu yl yu in
  uniform m l G s -> fresh load s t -> leaf_loads s = scatter m l F -> length F = m * 2 ^ l * (m * 2 ^ l) ->
  length g = 4 * (m * 2 ^ l) ->
  exists st1 t1 t2 t3 u,
    buildStage (solver_of solve) gesv false st t = Ok (st1, t1) /\
    upwardsStage (solver_of solve) gesv false load t1 = Ok t2 /\
    solveStage (solver_of solve) false g t2 = Ok t3 /\
    map snd (computed_values t3) = scatter m l u /\
    fv_solution c G g F u /\ (forall u', fv_solution c G g F u' -> u' = u) /\
    boundary_flux G g u = vplus (apply_op (pT (data t2)) g) (ph (data t2)).
Proof.
  intros HG Hx Hy G HU HF HL LF Lg.
  assert (N0 : m * 2 ^ l <> 0) by (apply pow_nz; exact Hm).
  assert (HP : oriented G) by (split; [exact Hx|split; [exact Hy|split; exact N0]]).
  assert (HLd : loads (fun f => f) m l F s) by (eapply loads_id; eauto).
  assert (Good := uniform_good m Hm c HS solve Hsolve l G s F eq_refl eq_refl HP HU HLd LF).
  assert (Posed := uniform_posed m Hm c HS solve Hsolve l G s eq_refl eq_refl HP HU).
  destruct (solver_glued_pf m (solver_of solve) gesv load s t st g) as (st1 & t1 & t2 & t3 & U & h & E1 & E2 & E3 & Gl & Ev & Eh & _); auto; [lia|right; eapply uniform_equal; eauto| |].
  { rewrite (uniform_level _ _ _ _ HU). exact Lg. }
  destruct (glued_cells m Hm c (solver_leaf (solver_of solve))) with (l := l) (G := G) (s := s) (F := F) (g := g) (h := h) (U := U)
    as (u & Su & Hh & Hv); auto.
  { intros. eapply solver_leaf_solution; eauto. }
  exists st1, t1, t2, t3, u. repeat split; auto.
  - rewrite Ev. exact Hv.
  - destruct Su; auto.
  - destruct Su; auto.
  - intros u' Su'. eapply (solution_unique c G (orp _ HP) g F u' u); eauto.
    + cbn [G whole gnx gny]. lia.
    + apply maximum_principle; auto. apply orp. exact HP.
  - rewrite <- Hh. exact Eh.
Qed.
End EndToEnd.
