(** Data of the wrong length, and stages in the wrong order. *)
From Verif Require Import Base VectorModel MatrixModel LinSpec HPSModel HPSSpec FVModel FVSpec StageSpec MisuseSpec.
From Verif Require Import MatProofs MatProofs2 MatProofs3 LinProofs BlockProofs HPSProofs HPSProofs2 HPSProofs3 HPSProofs4 HPSTree HPSTree2 HPSSizes.
From Verif Require Import FVProofs FVProofs2 FVFish.
From Coq Require Import Lia.

(** ** Loads of the wrong length *)

Lemma foldM_fail {X S} (f f' : S -> X -> res S) l1 x l2 s r e :
  foldM f' (l1 ++ x :: l2) s = Ok r -> (forall st y, In y l1 -> f st y = f' st y) ->
  (forall st, f st x = e) -> (forall k : S -> res S, bind e k = e) -> foldM f (l1 ++ x :: l2) s = e.
Proof.
  intros H H1 H2 H3. rewrite foldM_app in H. apply bind_inv in H as (s1 & E1 & _).
  rewrite foldM_app, (foldM_ext f f' l1 s) by auto. rewrite E1, bind_Ok. cbn [foldM]. rewrite H2. apply H3.
Qed.

Lemma vget_at {A} (v : list A) k : length v = k -> vget v k = UB.
Proof.
  intros <-. unfold vget. rewrite Nat.ltb_irrefl. destruct (nth_error v (length v)) eqn:E; [|reflexivity].
  assert (nth_error v (length v) <> None) as Q by congruence. apply nth_error_Some in Q. lia.
Qed.
Lemma vget_past {A} (v : list A) k : length v < k -> vget v k = Throw out_of_range.
Proof. intros H. unfold vget. destruct (Nat.ltb_spec (length v) k); [reflexivity|lia]. Qed.
Lemma vget_same {A} (v w : list A) k : k < length v -> vget (v ++ w) k = vget v k.
Proof.
  intros H. unfold vget. rewrite app_length. destruct (Nat.ltb_spec (length v + length w) k); [lia|].
  destruct (Nat.ltb_spec (length v) k); [lia|]. rewrite nth_error_app1 by auto. reflexivity.
Qed.
Lemma vget_firstn {A} (v : list A) n k : k < n -> n <= length v -> vget (firstn n v) k = vget v k.
Proof.
  intros H Hn. rewrite <- (firstn_skipn n v) at 2. rewrite vget_same; [reflexivity|]. rewrite firstn_length. lia.
Qed.

Lemma fv_cell_load c G gW gE gS gN f f' st i j : vget f (j + i * gny G) = vget f' (j + i * gny G) ->
  fv_cell c G gW gE gS gN f st i j = fv_cell c G gW gE gS gN f' st i j.
Proof. intros H. unfold fv_cell. cbv zeta. rewrite H. reflexivity. Qed.
Lemma fv_cell_at c G gW gE gS gN f st i j : length f = j + i * gny G -> fv_cell c G gW gE gS gN f st i j = UB.
Proof. intros H. unfold fv_cell. cbv zeta. rewrite vget_at by auto. reflexivity. Qed.
Lemma fv_cell_past c G gW gE gS gN f st i j : length f < j + i * gny G ->
  fv_cell c G gW gE gS gN f st i j = Throw out_of_range.
Proof. intros H. unfold fv_cell. cbv zeta. rewrite vget_past by auto. reflexivity. Qed.

Lemma seq_cut k n : k < n -> seq 0 n = seq 0 k ++ k :: seq (S k) (n - S k).
Proof.
  intros H. replace n with (k + S (n - S k)) at 1 by lia. rewrite seq_app. cbn [seq Nat.add]. reflexivity.
Qed.

Lemma foldM_cut {S} (f : S -> nat -> res S) k n s : k < n ->
  foldM f (seq 0 n) s = (s1 <- foldM f (seq 0 k) s ;; s2 <- f s1 k ;; foldM f (seq (Datatypes.S k) (n - Datatypes.S k)) s2).
Proof. intros H. rewrite (seq_cut k n) by auto. rewrite foldM_app. reflexivity. Qed.

(** What reading a load of [k] entries does in the order of the five-point loop. *)
Definition short_outcome {A} (n k : nat) : res A :=
  if (k mod n =? 0) || ((n - 1) * n <? k) then UB else Throw out_of_range.

Lemma short_bind {A B} n k (g : A -> res B) : bind (short_outcome n k) g = short_outcome n k.
Proof. unfold short_outcome. destruct (_ || _); reflexivity. Qed.

Section Short.
Context (c : coefs) (G : grid) (n : nat).
Hypothesis Ex : gnx G = n.
Hypothesis Ey : gny G = n.
Hypothesis Hn : 2 <= n.

Lemma short_system g f : length g = 4 * n -> length f < n * n ->
  fv_system c G g f = short_outcome n (length f).
Proof using Ex Ey Hn.
  intros Lg Lf. set (k := length f) in *.
  set (f' := f ++ repeat 0%Qc (n * n - k)).
  assert (Lf' : length f' = n * n) by (unfold f'; rewrite app_length, repeat_length; fold k; lia).
  pose proof (fv_system_ok G n Ex Ey c g f' Hn Lg Lf') as H.
  assert (Hsame : forall i j, j + i * n < k -> vget f' (j + i * n) = vget f (j + i * n)).
  { intros i j Hk. apply vget_same. exact Hk. }
  unfold fv_system in *. cbv zeta in *. apply bind_inv in H as (b & Eb & H). rewrite Eb, bind_Ok.
  rewrite Ex, Ey in *.
  assert (CS : forall st i j, j + i * n < k ->
     fv_cell c G (fa b) (fb b) (fc b) (fd b) f st i j = fv_cell c G (fa b) (fb b) (fc b) (fd b) f' st i j).
  { intros st i j Hk. apply fv_cell_load. rewrite Ey. symmetry. apply Hsame. exact Hk. }
  destruct (Nat.leb_spec k ((n - 1) * n)) as [Hk|Hk].
  - (* the first column of cells runs into the end *)
    set (i0 := (k + (n - 1)) / n).
    assert (D : k <= i0 * n < k + n).
    { unfold i0. pose proof (Nat.div_mod (k + (n - 1)) n ltac:(lia)) as E.
      pose proof (Nat.mod_upper_bound (k + (n - 1)) n ltac:(lia)). nia. }
    assert (Hi0 : i0 < n) by nia.
    assert (Hrow : forall s r, foldM (fun st i => fv_cell c G (fa b) (fb b) (fc b) (fd b) f' st i 0) (seq 0 n) s = Ok r ->
       foldM (fun st i => fv_cell c G (fa b) (fb b) (fc b) (fd b) f st i 0) (seq 0 n) s = short_outcome n k).
    { intros s r Hr. rewrite (seq_cut i0 n) in * by auto. apply (foldM_fail _ _ _ _ _ _ _ _ Hr).
      - intros st y Hy. apply in_seq in Hy. apply CS. assert (S y * n <= i0 * n) by (apply Nat.mul_le_mono_r; lia). cbn [Nat.mul] in *. lia.
      - intros st. unfold short_outcome. destruct (Nat.ltb_spec ((n - 1) * n) k); [lia|]. rewrite orb_false_r.
        destruct (Nat.eqb_spec (k mod n) 0) as [E|E].
        + apply fv_cell_at. rewrite Ey. fold k. apply Nat.mod_divides in E as (q & E); [|lia]. assert (q = i0) by nia. nia.
        + apply fv_cell_past. rewrite Ey. fold k. destruct (Nat.eq_dec k (i0 * n)) as [E'|E']; [|lia].
          exfalso. apply E. rewrite E'. apply Nat.mod_mul. lia.
      - intros kk. apply short_bind. }
    destruct n as [|n']; [lia|].
    assert (exists r, foldM (fun st i => fv_cell c G (fa b) (fb b) (fc b) (fd b) f' st i 0) (seq 0 (S n'))
              (mconst (S n' * S n') (S n' * S n') 0%Qc, repeat 0%Qc (S n' * S n')) = Ok r) as (r & Hr).
    { change (seq 0 (S n')) with (0 :: seq 1 n') in H at 1. cbn [foldM] in H. apply bind_inv in H as (r & Hr & _).
      exists r. exact Hr. }
    change (foldM (fun st j => foldM (fun st0 i => fv_cell c G (fa b) (fb b) (fc b) (fd b) f st0 i j) (seq 0 (S n')) st) (0 :: seq 1 n')
              (mconst (S n' * S n') (S n' * S n') 0%Qc, repeat 0%Qc (S n' * S n')) = short_outcome (S n') k).
    cbn [foldM]. cbn [foldM] in Hrow. rewrite (Hrow _ _ Hr). apply short_bind.
  - set (j0 := k - (n - 1) * n). assert (Hj0 : j0 < n) by nia.
    assert (HUB : @short_outcome (matrix Qc * list Qc) n k = UB).
    { unfold short_outcome. destruct (Nat.ltb_spec ((n - 1) * n) k); [|lia]. rewrite orb_true_r. reflexivity. }
    rewrite HUB. rewrite (foldM_cut _ j0 n) in H by auto. apply bind_inv in H as (s1 & E1 & H). apply bind_inv in H as (r & Er & _).
    rewrite (foldM_cut _ j0 n) by auto.
    rewrite (foldM_ext _ (fun st j => foldM (fun st i => fv_cell c G (fa b) (fb b) (fc b) (fd b) f' st i j) (seq 0 n) st) (seq 0 j0)).
    2:{ intros st j Hj. apply in_seq in Hj. apply foldM_ext. intros st' i Hi. apply in_seq in Hi. apply CS. nia. }
    rewrite E1, bind_Ok.
    rewrite (seq_cut (n - 1) n) in Er |- * by lia.
    rewrite (foldM_fail _ _ _ _ _ _ _ UB Er); [reflexivity| | |reflexivity].
    + intros st i Hi. apply in_seq in Hi. apply CS. nia.
    + intros st. apply fv_cell_at. rewrite Ey. fold k. lia.
Qed.
End Short.

(** The FISHPACK branch reads the load in the order of its entries. *)
Lemma short_fish hst c G n g f : gnx G = n -> gny G = n -> length g = 4 * n -> length f < n * n ->
  fish_solve hst c G g f = UB.
Proof.
  intros Ex Ey Lg Lf. set (k := length f) in *.
  set (f' := f ++ repeat 0%Qc (n * n - k)).
  assert (Lf' : length f' = n * n) by (unfold f'; rewrite app_length, repeat_length; fold k; lia).
  unfold fish_solve. rewrite (sides_ok G n Ex Ey g Lg), bind_Ok. cbv zeta. rewrite Ex, Ey.
  assert (Hn : n <> 0) by (intros ->; lia).
  assert (DM : forall I, I < n * n -> I mod n < n /\ I / n < n /\ I = I mod n + I / n * n).
  { intros I HI. split; [apply Nat.mod_upper_bound; lia|]. split; [apply Nat.div_lt_upper_bound; lia|].
    rewrite (Nat.div_mod I n) at 1 by lia. lia. }
  assert (DA : forall i j, i < n -> (i + j * n) mod n = i /\ (i + j * n) / n = j).
  { intros i j Hi. rewrite Nat.div_add, Nat.mod_add by lia. rewrite Nat.div_small, Nat.mod_small by auto. auto. }
  pose proof (fill2 n (fun i j => i + j * n) (fun I => I mod n) (fun I => I / n) (fun i j => vget f' (j + i * n)) (fun i j => vval f' (j + i * n))) as H.
  match type of H with ?A -> ?B -> ?C -> _ => assert (HA : A); [|assert (HB : B); [|assert (HC : C); [|specialize (H HA HB HC)]]] end.
  { intros i j Hi Hj. rewrite (vget_ok f' _ 0%Qc) by nia. reflexivity. }
  { intros i j Hi Hj. destruct (DA i j Hi) as (-> & ->). split; [nia|auto]. }
  { intros I HI. destruct (DM I HI) as (A1 & A2 & A3). auto. }
  clear HA HB HC. set (stp := fun (v : list Qc) (acc : list Qc) (i j : nat) => a <- vget v (j + i * n) ;; vset acc (i + j * n) a).
  change (foldM (fun acc i => foldM (fun acc j => stp f' acc i j) (seq 0 n) acc) (seq 0 n) (repeat 0%Qc (n * n)) =
          Ok (vec_of (n * n) (fun I => vval f' (I / n + I mod n * n)))) in H.
  destruct (DM k Lf) as (K1 & K2 & K3). set (i0 := k / n) in *. set (j0 := k mod n) in *.
  assert (CS : forall acc i j, j + i * n < k -> stp f acc i j = stp f' acc i j).
  { intros acc i j Hk. unfold stp, f'. rewrite vget_same by exact Hk. reflexivity. }
  assert (E : foldM (fun acc i => foldM (fun acc j => stp f acc i j) (seq 0 n) acc) (seq 0 n) (repeat 0%Qc (n * n)) = UB).
  { rewrite (foldM_cut _ i0 n) in H by auto. apply bind_inv in H as (s1 & E1 & H). apply bind_inv in H as (r & Er & _).
    rewrite (foldM_cut _ i0 n) by auto.
    rewrite (foldM_ext _ (fun acc i => foldM (fun acc j => stp f' acc i j) (seq 0 n) acc) (seq 0 i0)).
    2:{ intros acc i Hi. apply in_seq in Hi. apply foldM_ext. intros acc' j Hj. apply in_seq in Hj. apply CS.
        assert (S i * n <= i0 * n) by (apply Nat.mul_le_mono_r; lia). cbn [Nat.mul] in *. lia. }
    rewrite E1, bind_Ok. rewrite (seq_cut j0 n) in Er |- * by auto.
    rewrite (foldM_fail _ _ _ _ _ _ _ UB Er); [reflexivity| | |reflexivity].
    - intros acc j Hj. apply in_seq in Hj. apply CS. lia.
    - intros acc. unfold stp. rewrite vget_at by (fold k; lia). reflexivity. }
  change (fun fT i => foldM (fun fT0 j => a <- vget f (j + i * n) ;; vset fT0 (i + j * n) a) (seq 0 n) fT)
    with (fun acc i => foldM (fun acc j => stp f acc i j) (seq 0 n) acc). rewrite E. reflexivity.
Qed.

(** Surplus entries are not read. *)
Lemma fv_system_firstn c G g f : gnx G * gny G <= length f ->
  fv_system c G g f = fv_system c G g (firstn (gnx G * gny G) f).
Proof.
  intros Lf. unfold fv_system. destruct (sides (gnx G) g) as [b|e|]; try reflexivity. rewrite !bind_Ok. cbv zeta.
  apply foldM_ext. intros st j Hj. apply in_seq in Hj. apply foldM_ext. intros st' i Hi. apply in_seq in Hi.
  apply fv_cell_load. symmetry. apply vget_firstn; [|exact Lf]. apply idx_lt; lia.
Qed.
Lemma fish_firstn hst c G n g f : gnx G = n -> gny G = n -> n * n <= length f ->
  fish_solve hst c G g f = fish_solve hst c G g (firstn (n * n) f).
Proof.
  intros Ex Ey Lf. unfold fish_solve. destruct (sides (gnx G) g) as [b|e|]; try reflexivity. rewrite !bind_Ok. cbv zeta.
  rewrite Ex, Ey.
  rewrite (foldM_ext (fun fT i => foldM (fun fT0 j => a <- vget f (j + i * n) ;; vset fT0 (i + j * n) a) (seq 0 n) fT)
    (fun fT i => foldM (fun fT0 j => a <- vget (firstn (n * n) f) (j + i * n) ;; vset fT0 (i + j * n) a) (seq 0 n) fT)); [reflexivity|].
  intros st i Hi. apply in_seq in Hi. apply foldM_ext. intros st' j Hj. apply in_seq in Hj.
  rewrite vget_firstn; [reflexivity| |exact Lf]. nia.
Qed.

(** ** Boundary data of the wrong length *)
Lemma getSegment_short {A} (v : list A) s l : length v < s + l -> getSegment v s l = Throw out_of_range.
Proof. intros H. unfold getSegment. destruct (Nat.ltb_spec (length v) (s + l)); [reflexivity|lia]. Qed.
Lemma sides_short ns g : length g < 4 * ns -> sides ns g = Throw out_of_range.
Proof.
  intros H. unfold sides.
  destruct (Nat.ltb_spec (length g) (0 * ns + ns)); [rewrite getSegment_short by lia; reflexivity|].
  rewrite (getSegment_ok 0%Qc g (0 * ns)) by lia. rewrite bind_Ok.
  destruct (Nat.ltb_spec (length g) (1 * ns + ns)); [rewrite getSegment_short by lia; reflexivity|].
  rewrite (getSegment_ok 0%Qc g (1 * ns)) by lia. rewrite bind_Ok.
  destruct (Nat.ltb_spec (length g) (2 * ns + ns)); [rewrite getSegment_short by lia; reflexivity|].
  rewrite (getSegment_ok 0%Qc g (2 * ns)) by lia. rewrite bind_Ok.
  rewrite getSegment_short by lia. reflexivity.
Qed.
Lemma getSegment_firstn (v : list Qc) N s l : s + l <= N -> N <= length v -> getSegment v s l = getSegment (firstn N v) s l.
Proof.
  intros H HN. rewrite !(getSegment_ok 0%Qc) by (rewrite ?firstn_length; lia). f_equal. apply vec_of_ext. intros i Hi.
  rewrite <- (firstn_skipn N v) at 1. rewrite app_nth1; [reflexivity|]. rewrite firstn_length. lia.
Qed.
Lemma sides_firstn ns g : 4 * ns <= length g -> sides ns g = sides ns (firstn (4 * ns) g).
Proof.
  intros H. unfold sides. rewrite <- !(getSegment_firstn g (4 * ns)) by lia. reflexivity.
Qed.

(** ** The stages *)
Lemma szd_node m k a b c d p ta tb tc td : szd m k (QNode a b c d) (Node p ta tb tc td) ->
  pnc p = k /\ well_formed (pS p) /\ nr (pS p) = 4 * (m * 2 ^ min_level a b c d) /\ nc (pS p) = 8 * (m * 2 ^ min_level a b c d).
Proof. cbn [szd]. intros (_ & _ & _ & _ & _ & Ep & _ & (W & R & C) & _). auto. Qed.

Lemma solve_wrong_length m sv hom a b c d t g : szd m 0 (QNode a b c d) t ->
  length g <> 4 * (m * 2 ^ level (QNode a b c d)) -> solveStage sv hom g t = Throw invalid_argument.
Proof.
  intros HB Lg. destruct t as [|p ta tb tc td]; [destruct HB|]. destruct (szd_node _ _ _ _ _ _ _ _ _ _ _ HB) as (Ep & _ & _ & C).
  unfold solveStage. cbn [tsplit data]. unfold split1to4, uncoarsen. cbn [pnc set_g]. rewrite Ep. cbn [seq foldM]. rewrite bind_Ok.
  unfold applyS. cbn [pS pg set_g]. unfold mulv. rewrite C.
  change (level (QNode a b c d)) with (S (min_level a b c d)) in Lg. rewrite Nat.pow_succ_r' in Lg.
  destruct (Nat.eqb_spec (8 * (m * 2 ^ min_level a b c d)) (length g)) as [E|E]; [exfalso; lia|]. reflexivity.
Qed.

Lemma solve_without_w m sv a b c d t g : szd m 0 (QNode a b c d) t -> m <> 0 -> pw (data t) = [] ->
  solveStage sv false g t = Throw invalid_argument.
Proof.
  intros HB Hm Ew. destruct t as [|p ta tb tc td]; [destruct HB|]. destruct (szd_node _ _ _ _ _ _ _ _ _ _ _ HB) as (Ep & W & R & C).
  unfold solveStage. cbn [tsplit data]. unfold split1to4, uncoarsen. cbn [pnc set_g]. rewrite Ep. cbn [seq foldM]. rewrite bind_Ok.
  unfold applyS. cbn [pS pg pw set_g]. cbn [data] in Ew. rewrite Ew.
  assert (Hl : m * 2 ^ min_level a b c d <> 0) by (pose proof (pow_pos (min_level a b c d)); nia).
  destruct (Nat.eq_dec (length g) (nc (pS p))) as [E|E].
  - rewrite (mulv_ok (pS p) g) by (auto; lia). rewrite bind_Ok. unfold vadd. cbn [length]. rewrite vec_of_length, R.
    destruct (Nat.eqb_spec 0 (4 * (m * 2 ^ min_level a b c d))); [lia|]. reflexivity.
  - unfold mulv. destruct (Nat.eqb_spec (nc (pS p)) (length g)); [lia|]. reflexivity.
Qed.

Lemma boundary_vec_length G f : exists v, boundary_vec G f = Ok v /\ length v = 4 * gnx G.
Proof.
  unfold boundary_vec. rewrite concatenate_ok. eexists. split; [reflexivity|].
  cbn [map concat]. rewrite !app_length, !map_length, !seq_length. cbn [length]. lia.
Qed.

(** Mixed conditions need the flux vector of the root. *)
Lemma root_without_h sv gesv hom a b r t : ph (data t) = [] -> gnx (pgrid (data t)) <> 0 ->
  solveStage_fn sv gesv hom a b r t = Throw invalid_argument.
Proof.
  intros Eh Hx. unfold solveStage_fn, root_data.
  destruct (boundary_vec_length (pgrid (data t)) r) as (rv & -> & _). rewrite bind_Ok.
  destruct (boundary_vec_length (pgrid (data t)) a) as (av & -> & _). rewrite bind_Ok.
  destruct (boundary_vec_length (pgrid (data t)) b) as (bv & -> & Lb). rewrite bind_Ok.
  rewrite !DiagonalMatrix_ok, !bind_Ok. unfold mulv. cbn [nc mat_of]. rewrite Lb, Eh. cbn [length].
  destruct (Nat.eqb_spec (4 * gnx (pgrid (data t))) 0); [lia|]. reflexivity.
Qed.

(** The build does not touch load vectors. *)
Lemma merge_keeps gesv tau ch tau' ch' : merge4to1 gesv tau ch = Ok (tau', ch') -> pw tau' = pw tau /\ ph tau' = ph tau.
Proof.
  unfold merge4to1. intros H.
  apply bind_inv in H as (c' & _ & H). apply bind_inv in H as (s & _ & H). apply bind_inv in H as (b & _ & H).
  apply bind_inv in H as (t1 & E1 & H). apply bind_inv in H as (t2 & E2 & H). apply bind_inv in H as (t3 & E3 & H).
  apply bind_inv in H as (t4 & E4 & H). apply Ok_inj in H. injection H as <- _.
  unfold mergePatch. cbn [pw ph set_grid].
  assert (K1 : pw t1 = pw tau /\ ph t1 = ph tau).
  { unfold mergeX in E1. repeat (apply bind_inv in E1 as (? & _ & E1)). apply Ok_inj in E1. subst t1. auto. }
  assert (K2 : pw t2 = pw t1 /\ ph t2 = ph t1).
  { unfold mergeS in E2. repeat (apply bind_inv in E2 as (? & _ & E2)). apply Ok_inj in E2. subst t2. auto. }
  assert (K3 : pw t3 = pw t2 /\ ph t3 = ph t2).
  { unfold mergeT in E3. repeat (apply bind_inv in E3 as (? & _ & E3)). apply Ok_inj in E3. subst t3. auto. }
  assert (K4 : pw t4 = pw t3 /\ ph t4 = ph t3).
  { unfold reorderOperators in E4. cbv zeta in E4. repeat (apply bind_inv in E4 as (? & _ & E4)). apply Ok_inj in E4. subst t4. auto. }
  destruct K1, K2, K3, K4. split; congruence.
Qed.

Lemma build_keeps sv gesv cache st t st' t' : buildStage sv gesv cache st t = Ok (st', t') ->
  pw (data t') = pw (data t) /\ ph (data t') = ph (data t) /\ (forall p, t = Leaf p -> exists T, t' = Leaf (set_T p T)).
Proof.
  unfold buildStage. destruct t as [p|p a b c d]; cbn [tmerge]; intros H.
  - apply bind_inv in H as ([s1 p1] & E & H). apply Ok_inj in H. injection H as <- <-. cbn [fst snd data].
    unfold build_leaf in E.
    assert (exists T, p1 = set_T p T) as (T & ->).
    { destruct cache; [destruct st as [T|]|].
      - apply Ok_inj in E. injection E as <- <-. eauto.
      - apply bind_inv in E as (T & _ & E). apply Ok_inj in E. injection E as <- <-. eauto.
      - apply bind_inv in E as (T & _ & E). apply Ok_inj in E. injection E as <- <-. eauto. }
    split; [reflexivity|]. split; [reflexivity|]. intros p' E'. injection E' as <-. eauto.
  - apply bind_inv in H as (ra & _ & H). apply bind_inv in H as (rb & _ & H). apply bind_inv in H as (rc & _ & H).
    apply bind_inv in H as (rd & _ & H). apply bind_inv in H as ([tau ch] & E & H). apply Ok_inj in H. injection H as <- <-.
    apply merge_keeps in E. cbn [fst snd data]. destruct E. split; [auto|]. split; [auto|]. discriminate.
Qed.

(** homogeneous-rhs: nothing is merged. *)
Lemma up_hom_keeps sv gesv load t t' : upwardsStage sv gesv true load t = Ok t' -> pw (data t') = pw (data t).
Proof.
  unfold upwardsStage. destruct t as [p|p a b c d]; cbn [tmerge]; intros H.
  - apply bind_inv in H as (r & E & H). apply Ok_inj in H. subst t'. apply bind_inv in E as ([u p1] & E & H).
    apply Ok_inj in H. subst r. cbn [fst snd data]. unfold up_leaf in E. apply bind_inv in E as (h & _ & E).
    apply Ok_inj in E. injection E as _ <-. reflexivity.
  - apply bind_inv in H as (r & E & H). apply Ok_inj in H. subst t'.
    apply bind_inv in E as (ra & _ & H). apply bind_inv in H as (rb & _ & H). apply bind_inv in H as (rc & _ & H).
    apply bind_inv in H as (rd & _ & H). cbn [upwards4to1] in H. rewrite bind_Ok in H. apply Ok_inj in H. subst r. reflexivity.
Qed.

(** ** Upwards before build *)
Definition no_sets : index_sets := IS [] [] [] [] [] [] [] [] [] [] [] [].
Definition unbuilt (n : nat) (p : patch) : Prop := pT p = Mat 0 0 [] /\ pnc p = 0 /\ gnx (pgrid p) = n.

Lemma sets_unbuilt n ch : all4 (unbuilt n) ch -> createIndexSets ch = Ok no_sets.
Proof.
  destruct ch as [a b c d]. intros ((Ta & Na & Xa) & (Tb & Nb & Xb) & (Tc & Nc & Xc) & (Td & Nd & Xd)). cbn [fa fb fc fd] in *.
  unfold createIndexSets, fmap, psize. cbn [fa fb fc fd]. rewrite Na, Nb, Nc, Nd, Xa, Xb, Xc, Xd, !Nat.eqb_refl, Ta. reflexivity.
Qed.
Definition no_blocks : blocks :=
  let e := Mat 0 0 [] in
  Blocks e e e e e e e e e e e e e e e e e e e e e e e e e e e e e e e e e e e e.
Lemma blocks_unbuilt n ch : all4 (unbuilt n) ch -> createMatrixBlocks no_sets ch = Ok no_blocks.
Proof.
  destruct ch as [a b c d]. intros ((Ta & _) & (Tb & _) & (Tc & _) & (Td & _)). cbn [fa fb fc fd] in *.
  unfold createMatrixBlocks. cbn [fa fb fc fd]. rewrite Ta, Tb, Tc, Td. vm_compute. reflexivity.
Qed.
Lemma X_unbuilt tau : mergeX tau no_blocks = Ok (set_X tau (Mat 0 0 [])).
Proof. destruct tau. vm_compute. reflexivity. Qed.
Lemma coarsenUp_unbuilt n ch : all4 (unbuilt n) ch -> coarsenUpwards ch = Ok ch.
Proof.
  destruct ch as [a b c d]. intros ((_ & Na & _) & (_ & Nb & _) & (_ & Nc & _) & (_ & Nd & _)). cbn [fa fb fc fd] in *.
  unfold coarsenUpwards, fmapM, coarsenUp_one. cbn [fa fb fc fd]. rewrite Na, Nb, Nc, Nd. reflexivity.
Qed.
Lemma merge_without_T gesv tau ch n : all4 (unbuilt n) ch -> upwards4to1 gesv false tau ch = Throw illegal_blas_argument.
Proof.
  intros H. unfold upwards4to1. rewrite (coarsenUp_unbuilt _ _ H), bind_Ok, (sets_unbuilt _ _ H), bind_Ok, (blocks_unbuilt _ _ H), bind_Ok, X_unbuilt, bind_Ok.
  unfold mergeW, hDiff. cbn [no_sets is_ab is_ag is_at is_ba is_bo is_bt is_ga is_go is_gt is_ob is_og is_ot].
  assert (E : forall v, vgetFromIndexSet (A:=Qc) v [] = Ok []) by (intros v; reflexivity).
  rewrite !E, !bind_Ok. reflexivity.
Qed.

Lemma up_unbuilt sv gesv load m t : new_tree t -> leaves_have (h_known sv load m) t ->
  match t with
  | Leaf p => exists p', tmerge (up_leaf sv load) (upwards4to1 gesv false) tt t = Ok (tt, Leaf p') /\ unbuilt m p'
  | Node _ _ _ _ _ => tmerge (up_leaf sv load) (upwards4to1 gesv false) tt t = Throw illegal_blas_argument
  end.
Proof.
  induction t as [p|p a IHa b IHb c IHc d IHd]; cbn [new_tree leaves_have].
  - intros Ep (Ex & h & Eh). cbn [tmerge]. unfold up_leaf. cbn [pgrid pf set_f].
    rewrite Eh, !bind_Ok. eexists. split; [reflexivity|]. rewrite Ep. unfold unbuilt, set_h, set_f, new_patch. cbn. auto.
  - intros (_ & Wa & Wb & Wc & Wd) (La & Lb & Lc & Ld). specialize (IHa Wa La). specialize (IHb Wb Lb). specialize (IHc Wc Lc). specialize (IHd Wd Ld).
    cbn [tmerge].
    destruct a as [pa|pa a1 a2 a3 a4]; [|rewrite IHa; reflexivity]. destruct IHa as (pa' & -> & Ua). rewrite bind_Ok. cbn [fst snd].
    destruct b as [pb|pb a1 a2 a3 a4]; [|rewrite IHb; reflexivity]. destruct IHb as (pb' & -> & Ub). rewrite bind_Ok. cbn [fst snd].
    destruct c as [pc|pc a1 a2 a3 a4]; [|rewrite IHc; reflexivity]. destruct IHc as (pc' & -> & Uc). rewrite bind_Ok. cbn [fst snd].
    destruct d as [pd|pd a1 a2 a3 a4]; [|rewrite IHd; reflexivity]. destruct IHd as (pd' & -> & Ud). rewrite bind_Ok. cbn [fst snd data].
    rewrite (merge_without_T gesv p _ m); [reflexivity|]. repeat split; cbn [fa fb fc fd]; first [apply Ua|apply Ub|apply Uc|apply Ud].
Qed.

(** ** The shipped patch solvers *)
Lemma map_stops solve G g f (e : forall A, res A) : (forall A B (k : A -> res B), bind (e A) k = e B) ->
  (exists b, sides (gnx G) g = Ok b) -> solve G g f = e (list Qc) -> fv_map solve G g f = e (list Qc).
Proof. intros He (b & Eb) H. unfold fv_map. cbv zeta. rewrite Eb, bind_Ok, H. apply He. Qed.

Lemma sides_exist G n g : gnx G = n -> gny G = n -> length g = 4 * n -> exists b, sides (gnx G) g = Ok b.
Proof. intros Ex Ey Lg. rewrite (sides_ok G n Ex Ey g Lg). eauto. Qed.

Lemma five_short lu c G n g f : gnx G = n -> gny G = n -> length g = 4 * n -> length f < n * n ->
  fv_solve lu c G g f = short_outcome n (length f) /\ fv_map (fv_solve lu c) G g f = short_outcome n (length f).
Proof.
  intros Ex Ey Lg Lf. assert (E : fv_solve lu c G g f = short_outcome n (length f)).
  { unfold fv_solve. destruct (le_lt_dec 2 n) as [Hn|Hn]; [rewrite (short_system c G n Ex Ey Hn) by auto; apply short_bind|].
    assert (n = 1) as -> by nia. assert (length f = 0) as L0 by lia. rewrite L0.
    unfold fv_system. rewrite (sides_ok G 1 Ex Ey g Lg), bind_Ok. cbv zeta. rewrite Ex, Ey. cbn [seq foldM].
    rewrite fv_cell_at by (rewrite L0; lia). reflexivity. }
  split; [exact E|]. apply (map_stops _ _ _ _ (fun A => short_outcome n (length f))); [intros; apply short_bind|eapply sides_exist; eauto|exact E].
Qed.
Lemma fish_short hst c G n g f : gnx G = n -> gny G = n -> length g = 4 * n -> length f < n * n ->
  fish_solve hst c G g f = UB /\ fv_map (fish_solve hst c) G g f = UB.
Proof.
  intros Ex Ey Lg Lf. pose proof (short_fish hst c G n g f Ex Ey Lg Lf) as E.
  split; [exact E|]. apply (map_stops _ _ _ _ (fun A => UB)); [reflexivity|eapply sides_exist; eauto|exact E].
Qed.

Lemma five_h_short lu c G n f : gnx G = n -> gny G = n -> length f < n * n ->
  sv_h (fv_solver lu c) G f = short_outcome n (length f).
Proof.
  intros Ex Ey Lf. unfold fv_solver, solver_of. cbn [sv_h]. unfold fv_h. rewrite Ex, Ey.
  apply five_short; auto. rewrite repeat_length. lia.
Qed.
Lemma fish_h_short hst c G n f : gnx G = n -> gny G = n -> length f < n * n -> sv_h (fish_solver hst c) G f = UB.
Proof.
  intros Ex Ey Lf. unfold fish_solver, solver_of. cbn [sv_h]. unfold fv_h. rewrite Ex, Ey.
  apply (fish_short hst c G n); auto. rewrite repeat_length. lia.
Qed.

Lemma up_loads_gen sv gesv hom load (Q : grid -> Prop) t r : (forall G, (exists h, sv_h sv G (load G) = Ok h) -> Q G) ->
  tmerge (up_leaf sv load) (upwards4to1 gesv hom) tt t = Ok r -> leaves_have Q t.
Proof.
  intros HQ. revert r. induction t as [p|p a IHa b IHb c IHc d IHd]; intros r H; cbn [tmerge leaves_have] in *.
  - apply bind_inv in H as (x & E & _). unfold up_leaf in E. cbn [pgrid pf set_f] in E. apply bind_inv in E as (h & Eh & _). apply HQ. eauto.
  - assert (Eu : forall st : unit, st = tt) by (intros []; reflexivity).
    apply bind_inv in H as (ra & Ha & H). apply bind_inv in H as (rb & Hb & H). apply bind_inv in H as (rc & Hc & H).
    apply bind_inv in H as (rd & Hd & _). rewrite (Eu (fst ra)) in Hb. rewrite (Eu (fst rb)) in Hc. rewrite (Eu (fst rc)) in Hd.
    repeat split; eauto.
Qed.
Lemma up_loads sv gesv hom load (Q : grid -> Prop) t t' : (forall G, (exists h, sv_h sv G (load G) = Ok h) -> Q G) ->
  upwardsStage sv gesv hom load t = Ok t' -> leaves_have Q t.
Proof. intros HQ H. unfold upwardsStage in H. apply bind_inv in H as (r & H & _). eapply up_loads_gen; eauto. Qed.

Lemma up_first sv gesv hom load t : sv_h sv (pgrid (first_leaf t)) (load (pgrid (first_leaf t))) = UB ->
  upwardsStage sv gesv hom load t = UB.
Proof.
  intros H. unfold upwardsStage. assert (E : tmerge (up_leaf sv load) (upwards4to1 gesv hom) tt t = UB); [|rewrite E; reflexivity].
  induction t as [p|p a IHa b IHb c IHc d IHd]; cbn [tmerge first_leaf] in *.
  - unfold up_leaf. cbn [pgrid pf set_f]. rewrite H. reflexivity.
  - rewrite IHa by exact H. reflexivity.
Qed.

(** ** Stage sequences *)
Lemma build_leaf_sized m sv cache st p : (forall T, st = Some T -> square (4 * m) T) -> sized_solver m sv (pgrid p) ->
  exists T st', build_leaf sv cache st p = Ok (st', set_T p T) /\ square (4 * m) T /\ (forall T, st' = Some T -> square (4 * m) T).
Proof.
  intros HP HS. destruct (sz_T _ _ _ HS) as (T & ET & Sq). unfold build_leaf. destruct cache; [destruct st as [T0|]|].
  - exists T0, (Some T0). auto.
  - rewrite ET, bind_Ok. exists T, (Some T). split; [reflexivity|]. split; [exact Sq|]. intros T1 E. injection E as <-. exact Sq.
  - rewrite ET, bind_Ok. exists T, st. auto.
Qed.
Lemma build_sized' m sv gesv load s t cache : 3 <= m -> gesv_contract gesv -> fresh load s t -> sized_leaves m sv s ->
  exists st t1, buildStage sv gesv cache None t = Ok (st, t1) /\ szd m 0 s t1.
Proof.
  intros Hm Hg HF HS. destruct (build_sized m sv gesv load s t (fun st => forall T, st = Some T -> square (4 * m) T) (build_leaf sv cache) None Hm Hg)
    as (st & t1 & E & B & _); [intros; apply build_leaf_sized; auto|discriminate|exact HF|exact HS|].
  exists st, t1. split; [exact E|exact B].
Qed.

Lemma wrong_boundary m sv gesv load s t cache hom g : 3 <= m -> gesv_contract gesv -> fresh load s t -> sized_leaves m sv s ->
  divided s -> length g <> 4 * (m * 2 ^ level s) ->
  exists st t1 t2, buildStage sv gesv cache None t = Ok (st, t1) /\ upwardsStage sv gesv hom load t1 = Ok t2 /\
    solveStage sv hom g t2 = Throw invalid_argument.
Proof.
  intros Hm Hg HF HS Hd Lg. destruct s as [|a b c d]; [destruct Hd|].
  destruct (build_sized' m sv gesv load _ t cache Hm Hg HF HS) as (st & t1 & E1 & B1).
  assert (U : exists t2, upwardsStage sv gesv hom load t1 = Ok t2 /\ szd m 0 (QNode a b c d) t2).
  { unfold upwardsStage. destruct hom.
    - destruct (up_hom_sized m sv gesv load _ 0 t1 ltac:(lia) (fresh_loads _ _ _ HF) HS B1) as (t2 & E2 & B2).
      rewrite E2, bind_Ok. eauto.
    - destruct (up_sized m sv gesv load _ 0 t1 Hm Hg (fresh_loads _ _ _ HF) HS B1) as (t2 & E2 & B2 & _).
      rewrite E2, bind_Ok. eauto. }
  destruct U as (t2 & E2 & B2). exists st, t1, t2. split; [exact E1|]. split; [exact E2|].
  eapply solve_wrong_length; eauto.
Qed.

Lemma new_data t : new_tree t -> data t = new_patch (pgrid (data t)).
Proof. destruct t; cbn [new_tree data]; tauto. Qed.

Lemma solve_unbuilt sv hom p a b c d g : new_tree (Node p a b c d) ->
  solveStage sv hom g (Node p a b c d) = Throw (if length g =? 0 then illegal_blas_argument else invalid_argument).
Proof.
  intros (Ep & _). unfold solveStage. cbn [tsplit data]. rewrite Ep. unfold split1to4, uncoarsen. cbn [pnc set_g new_patch seq foldM].
  rewrite bind_Ok. unfold applyS. cbn [pS pg set_g new_patch]. destruct g; reflexivity.
Qed.

Lemma solve_fn_unbuilt sv gesv hom a b r t : new_tree t -> gnx (pgrid (data t)) <> 0 ->
  solveStage_fn sv gesv hom a b r t = Throw invalid_argument.
Proof. intros H Hx. apply root_without_h; [rewrite (new_data t H); reflexivity|exact Hx]. Qed.

Lemma up_before_build sv gesv load m p a b c d : new_tree (Node p a b c d) -> leaves_have (h_known sv load m) (Node p a b c d) ->
  upwardsStage sv gesv false load (Node p a b c d) = Throw illegal_blas_argument.
Proof. intros H HL. unfold upwardsStage. pose proof (up_unbuilt sv gesv load m _ H HL) as E. cbn iota in E. rewrite E. reflexivity. Qed.

Lemma no_upwards m sv gesv load s t cache g a b r : 3 <= m -> gesv_contract gesv -> fresh load s t -> sized_leaves m sv s -> new_tree t ->
  exists st t1, buildStage sv gesv cache None t = Ok (st, t1) /\
    (divided s -> solveStage sv false g t1 = Throw invalid_argument) /\
    (forall hom, solveStage_fn sv gesv hom a b r t1 = Throw invalid_argument).
Proof.
  intros Hm Hg HF HS HN. destruct (build_sized' m sv gesv load _ t cache Hm Hg HF HS) as (st & t1 & E1 & B1).
  exists st, t1. split; [exact E1|]. destruct (build_keeps _ _ _ _ _ _ _ E1) as (Ew & Eh & _).
  pose proof (new_data t HN) as Ed. split.
  - intros Hd. destruct s as [|s1 s2 s3 s4]; [destruct Hd|]. eapply solve_without_w; eauto; [lia|]. rewrite Ew, Ed. reflexivity.
  - intros hom. apply root_without_h; [rewrite Eh, Ed; reflexivity|].
    destruct (szd_root m sv 0 s t1 ltac:(lia) HS B1) as (_ & X1 & _). rewrite X1. pose proof (pow_pos (level s)). nia.
Qed.

Lemma hom_upwards_only m sv gesv load s t cache g : 3 <= m -> gesv_contract gesv -> fresh load s t -> sized_leaves m sv s -> new_tree t ->
  divided s ->
  exists st t1 t2, buildStage sv gesv cache None t = Ok (st, t1) /\ upwardsStage sv gesv true load t1 = Ok t2 /\
    solveStage sv false g t2 = Throw invalid_argument.
Proof.
  intros Hm Hg HF HS HN Hd. destruct (build_sized' m sv gesv load _ t cache Hm Hg HF HS) as (st & t1 & E1 & B1).
  destruct (build_keeps _ _ _ _ _ _ _ E1) as (Ew & Eh & _). pose proof (new_data t HN) as Ed.
  destruct (up_hom_sized m sv gesv load _ 0 t1 ltac:(lia) (fresh_loads _ _ _ HF) HS B1) as (t2 & E2 & B2).
  assert (E2' : upwardsStage sv gesv true load t1 = Ok t2) by (unfold upwardsStage; rewrite E2; reflexivity).
  exists st, t1, t2. split; [exact E1|]. split; [exact E2'|].
  destruct s as [|s1 s2 s3 s4]; [destruct Hd|]. eapply solve_without_w; eauto; [lia|]. rewrite (up_hom_keeps _ _ _ _ _ E2'), Ew, Ed. reflexivity.
Qed.

(** A single leaf solved without load. *)
Lemma leaf_unloaded sv gesv cache st G st' t1 g : sv_solve sv G g [] = UB ->
  buildStage sv gesv cache st (Leaf (new_patch G)) = Ok (st', t1) -> solveStage sv false g t1 = UB.
Proof.
  intros H E. destruct (build_keeps _ _ _ _ _ _ _ E) as (_ & _ & K). destruct (K _ eq_refl) as (T & ->).
  unfold solveStage. cbn [tsplit data]. unfold leafSolve. cbn [pgrid pg pf set_g set_T new_patch]. rewrite H. reflexivity.
Qed.
