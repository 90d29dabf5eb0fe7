(** The interpolation matrices in double arithmetic. *)
From Coq Require Import Reals Lra Permutation.
From Flocq Require Import Core Binary Bits.
From Verif Require Import Base VectorModel MatrixModel LinSpec MatProofs MatProofs2 MatProofs3 HPSModel FloatModel FloatSpec
  FloatProofs FloatProofs2 FProdModel FProdSpec FProdProofs FProdProofs2.

Local Open Scope R_scope.
Local Notation val := FloatSpec.val.

(** ** The same loops with doubles and with rational numbers *)
Definition relres {A B} (P : A -> B -> Prop) (x : res A) (y : res B) : Prop :=
  match x, y with
  | Ok a, Ok b => P a b
  | Throw e, Throw e' => e = e'
  | UB, UB => True
  | _, _ => False
  end.

Lemma rel_bind {A B A' B'} (P : A -> B -> Prop) (Q : A' -> B' -> Prop) x y f g :
  relres P x y -> (forall a b, P a b -> relres Q (f a) (g b)) -> relres Q (bind x f) (bind y g).
Proof. intros H K. destruct x, y; try contradiction; cbn in *; auto. Qed.

Lemma rel_foldM {A S T} (P : S -> T -> Prop) (f : S -> A -> res S) (g : T -> A -> res T) l :
  (forall a s t, P s t -> relres P (f s a) (g t a)) -> forall s t, P s t -> relres P (foldM f l s) (foldM g l t).
Proof.
  intros H. induction l as [|a l IH]; intros s t K; [exact K|]. cbn [foldM]. apply (rel_bind P P); [apply H, K|exact IH].
Qed.
Lemma rel_foldM2 {A B S T} (P : S -> T -> Prop) (Q : A -> B -> Prop) (f : S -> A -> res S) (g : T -> B -> res T) l l' :
  Forall2 Q l l' -> (forall a b s t, Q a b -> P s t -> relres P (f s a) (g t b)) ->
  forall s t, P s t -> relres P (foldM f l s) (foldM g l' t).
Proof.
  intros F H. induction F as [|a b l l' Hab F IH]; intros s t K; [exact K|]. cbn [foldM].
  apply (rel_bind P P); [apply H; assumption|exact IH].
Qed.

Lemma upd_same d q p a b : Forall2 is_double d q -> is_double a b -> Forall2 is_double (upd d p a) (upd q p b).
Proof.
  intros F H. revert p. induction F as [|x y d q Hxy F IH]; intros p; [destruct p; constructor|].
  destruct p as [|p]; cbn [upd]; constructor; auto.
Qed.
Lemma rel_mset D M i j a b : same_matrix D M -> is_double a b -> relres same_matrix (mset D i j a) (mset M i j b).
Proof.
  intros (E1 & E2 & F) H. unfold mset, flattenIndex. rewrite E1, E2, (F2_length _ _ _ F).
  destruct (_ <? _)%nat; [reflexivity|]. destruct (_ <? _)%nat; [reflexivity|]. rewrite !bind_Ok.
  destruct (_ <? _)%nat; [|exact I]. split; [reflexivity|]. split; [reflexivity|]. apply upd_same; assumption.
Qed.
Lemma rel_mget D M i j : same_matrix D M -> relres is_double (mget D i j) (mget M i j).
Proof.
  intros (E1 & E2 & F). unfold mget, flattenIndex. rewrite E1, E2.
  destruct (_ <? _)%nat; [reflexivity|]. destruct (_ <? _)%nat; [reflexivity|]. rewrite !bind_Ok.
  unfold vdata. generalize (i * nc M + j)%nat. intros p. revert p.
  induction F as [|x y d q Hxy F IH]; intros [|p]; cbn; auto.
Qed.
Lemma same_const r c a b : is_double a b -> same_matrix (mconst r c a) (mconst r c b).
Proof.
  intros H. split; [reflexivity|]. split; [reflexivity|]. cbn [dat mconst]. induction (r * c)%nat; cbn; constructor; auto.
Qed.

Lemma dlit_ok n k : (Z.abs n < 2 ^ 53)%Z -> (0 <= k <= 52)%Z ->
  finite (dlit n k) /\ val (dlit n k) = IZR n * bpow radix2 (- k).
Proof.
  intros Hn Hk. unfold dlit. destruct (dint_ok n Hn) as (Fn & Vn).
  destruct (dint_ok (2 ^ k)) as (F2 & V2).
  { rewrite Z.abs_eq by (apply Z.pow_nonneg; lia). apply Z.pow_lt_mono_r; lia. }
  assert (E : val (dint n) / val (dint (2 ^ k)) = IZR n * bpow radix2 (- k)).
  { rewrite Vn, V2. rewrite (IZR_Zpower radix2) by lia. rewrite bpow_opp. reflexivity. }
  assert (R : rnd (IZR n * bpow radix2 (- k)) = IZR n * bpow radix2 (- k)) by (apply rnd_repr, repr_scaled; [exact Hn|lia]).
  destruct (ddiv_ok (dint n) (dint (2 ^ k)) Fn) as (F & V).
  - rewrite V2, (IZR_Zpower radix2) by lia. pose proof (bpow_gt_0 radix2 k). lra.
  - rewrite E, R. rewrite Rabs_mult, (Rabs_pos_eq (bpow _ _)) by apply bpow_ge_0. rewrite <- abs_IZR.
    apply Rle_lt_trans with (IZR (Z.abs n) * 1).
    + apply Rmult_le_compat_l; [apply IZR_le; lia|]. change 1 with (bpow radix2 0). apply bpow_le. lia.
    + rewrite Rmult_1_r. change (bpow radix2 1024) with (IZR (2 ^ 1024)). apply IZR_lt.
      apply (Z.lt_trans _ (2 ^ 53)); [exact Hn|]. apply Z.pow_lt_mono_r; lia.
  - split; [exact F|]. rewrite V, E. exact R.
Qed.

Lemma qval_frac n d : qval (Q2Qc (n # d)) = IZR n / IZR (Z.pos d).
Proof. unfold qval. change (this (Q2Qc (n # d))) with (Qred (n # d)). rewrite (Qreals.Qeq_eqR _ (n # d) (Qred_correct _)). reflexivity. Qed.

Lemma lit_half : is_double (dlit 1 1) half.
Proof. destruct (dlit_ok 1 1) as (F & V); [reflexivity|lia|]. split; [exact F|]. rewrite V. unfold half. rewrite qval_frac. change (bpow radix2 (- (1))) with (/ 2). lra. Qed.
Lemma lit_e0 : is_double (dlit 45 5) edge0.
Proof. destruct (dlit_ok 45 5) as (F & V); [reflexivity|lia|]. split; [exact F|]. rewrite V. unfold edge0. rewrite qval_frac. change (bpow radix2 (- (5))) with (/ 32). lra. Qed.
Lemma lit_e1 : is_double (dlit (-9) 4) edge1.
Proof. destruct (dlit_ok (-9) 4) as (F & V); [reflexivity|lia|]. split; [exact F|]. rewrite V. unfold edge1. rewrite qval_frac. change (bpow radix2 (- (4))) with (/ 16). lra. Qed.
Lemma lit_e2 : is_double (dlit 5 5) edge2.
Proof. destruct (dlit_ok 5 5) as (F & V); [reflexivity|lia|]. split; [exact F|]. rewrite V. unfold edge2. rewrite qval_frac. change (bpow radix2 (- (5))) with (/ 32). lra. Qed.
Lemma lit_3 : is_double (dlit 3 2) threeq.
Proof. destruct (dlit_ok 3 2) as (F & V); [reflexivity|lia|]. split; [exact F|]. rewrite V. unfold threeq. rewrite qval_frac. change (bpow radix2 (- (2))) with (/ 4). lra. Qed.
Lemma lit_1 : is_double (dlit 1 2) oneq.
Proof. destruct (dlit_ok 1 2) as (F & V); [reflexivity|lia|]. split; [exact F|]. rewrite V. unfold oneq. rewrite qval_frac. change (bpow radix2 (- (2))) with (/ 4). lra. Qed.
Lemma lit_0 : is_double (dint 0) 0%Qc.
Proof. split; [reflexivity|]. rewrite val0, qval_0. reflexivity. Qed.

Lemma fine2coarse_same n : relres same_matrix (dFine2Coarse n) (Fine2Coarse n).
Proof.
  unfold dFine2Coarse, Fine2Coarse. apply rel_foldM; [|apply same_const, lit_0]. intros i D M H.
  apply rel_foldM; [|exact H]. clear D M H. intros j D M H. destruct (_ =? _)%nat; [|exact H].
  apply (rel_bind same_matrix same_matrix); [apply rel_mset; [exact H|apply lit_half]|]. intros D1 M1 H1.
  apply rel_mset; [exact H1|apply lit_half].
Qed.
Lemma coarse2fine_same n : relres same_matrix (dCoarse2Fine n) (Coarse2Fine n).
Proof.
  unfold dCoarse2Fine, Coarse2Fine. cbv zeta. apply rel_foldM; [|apply same_const, lit_0]. intros i D M H.
  apply rel_foldM; [|exact H]. clear D M H. intros j D M H.
  destruct (_ && _); [|destruct (_ && _); [|destruct (_ && _); [|exact H]]].
  - apply (rel_bind same_matrix same_matrix); [apply rel_mset; [exact H|apply lit_e0]|]. intros D1 M1 H1.
    apply (rel_bind same_matrix same_matrix); [apply rel_mset; [exact H1|apply lit_e1]|]. intros D2 M2 H2.
    apply rel_mset; [exact H2|apply lit_e2].
  - apply (rel_bind same_matrix same_matrix); [apply rel_mset; [exact H|apply lit_e2]|]. intros D1 M1 H1.
    apply (rel_bind same_matrix same_matrix); [apply rel_mset; [exact H1|apply lit_e1]|]. intros D2 M2 H2.
    apply rel_mset; [exact H2|apply lit_e0].
  - apply (rel_bind same_matrix same_matrix); [apply rel_mset; [exact H|apply lit_3]|]. intros D1 M1 H1.
    apply (rel_bind same_matrix same_matrix); [apply rel_mset; [exact H1|apply lit_1]|]. intros D2 M2 H2.
    apply (rel_bind same_matrix same_matrix); [apply rel_mset; [exact H2|apply lit_1]|]. intros D3 M3 H3.
    apply rel_mset; [exact H3|apply lit_3].
Qed.

Lemma rel_setBlock D M r c D' M' : same_matrix D M -> same_matrix D' M' -> relres same_matrix (setBlock D r c D') (setBlock M r c M').
Proof.
  intros H H'. destruct H as (E1 & E2 & F). pose proof (conj E1 (conj E2 F)) as H. destruct H' as (E1' & E2' & F').
  pose proof (conj E1' (conj E2' F')) as H'. unfold setBlock. rewrite E1, E2, E1', E2'.
  destruct (_ <? _)%nat; [reflexivity|]. destruct (_ <? _)%nat; [reflexivity|].
  apply rel_foldM; [|exact H]. intros i X Y K. apply rel_foldM; [|exact K]. clear X Y K. intros j X Y K.
  apply (rel_bind is_double same_matrix); [apply rel_mget, H'|]. intros a b Hab. apply rel_mset; assumption.
Qed.
Lemma blockdiag_same Ds Ms : Forall2 same_matrix Ds Ms -> relres same_matrix (dblockDiagonal Ds) (blockDiagonalMatrix Ms).
Proof.
  intros F. unfold dblockDiagonal, blockDiagonalMatrix.
  assert (Er : map (fun d => nr d) Ds = map (fun d => nr d) Ms) by (induction F as [|D M Ds Ms (H & _) F IH]; cbn; [|rewrite H, IH]; reflexivity).
  assert (Ec : map (fun d => nc d) Ds = map (fun d => nc d) Ms) by (clear Er; induction F as [|D M Ds Ms (_ & H & _) F IH]; cbn; [|rewrite H, IH]; reflexivity).
  rewrite Er, Ec.
  set (P := fun (s : matrix double * nat * nat) (t : matrix Qc * nat * nat) =>
              same_matrix (fst (fst s)) (fst (fst t)) /\ snd (fst s) = snd (fst t) /\ snd s = snd t).
  apply (rel_bind P same_matrix).
  - apply (rel_foldM2 P same_matrix); [exact F| |].
    + intros D M ((X & r) & c) ((Y & r') & c') HD (K & K1 & K2). cbn [fst snd] in *. subst r' c'.
      apply (rel_bind same_matrix P); [apply rel_setBlock; assumption|]. intros X' Y' K'. destruct HD as (N1 & N2 & _).
      split; [exact K'|]. cbn [fst snd]. rewrite N1, N2. split; reflexivity.
    + split; [|split; reflexivity]. cbn [fst]. apply same_const, lit_0.
  - intros s t (K & _ & _). exact K.
Qed.

Lemma four_same D M : same_matrix D M -> relres same_matrix (dblockDiagonal [D; D; D; D]) (four_diag M).
Proof. intros H. apply blockdiag_same. do 4 (constructor; [exact H|]). constructor. Qed.

(** ** Rows with few entries *)
Definition row_ws (f : nat -> R) (n : nat) (ws : list (nat * R)) : Prop :=
  NoDup (map fst ws) /\ Forall (fun w => (fst w < n)%nat /\ f (fst w) = snd w) ws /\
  forall j, (j < n)%nat -> ~ In j (map fst ws) -> f j = 0.

Lemma Rsum_zero {A} (f : A -> R) l : (forall a, In a l -> f a = 0) -> Rsum (map f l) = 0.
Proof.
  unfold Rsum. induction l as [|a l IH]; intros H; [reflexivity|]. cbn. rewrite (H a (or_introl eq_refl)), (IH (fun x K => H x (or_intror K))). ring.
Qed.
Lemma filter_zero {A} (f : A -> R) l : (forall a, In a l -> f a = 0) -> filter (fun a => negb (Req_bool (f a) 0)) l = [].
Proof.
  induction l as [|a l IH]; intros H; [reflexivity|]. cbn. rewrite (H a) by (cbn; auto).
  rewrite Req_bool_true by reflexivity. cbn. apply IH. intros; apply H; cbn; auto.
Qed.

(** The indices of the row are those of the entries and others where the row is zero. *)
Lemma row_split f n ws : row_ws f n ws -> exists rest, Permutation (seq 0 n) (map fst ws ++ rest) /\ forall j, In j rest -> f j = 0.
Proof.
  intros (N & F & Z).
  assert (G : exists rest, Permutation (seq 0 n) (map fst ws ++ rest)).
  { assert (I : incl (map fst ws) (seq 0 n)).
    { intros j Hj. apply in_map_iff in Hj as (w & <- & Hw). rewrite Forall_forall in F. apply in_seq.
      pose proof (proj1 (F w Hw)). lia. }
    revert N I. generalize (map fst ws) as l. generalize (seq 0 n) as s. clear. intros s l. revert s.
    induction l as [|a l IH]; intros s N I; [exists s; apply Permutation_refl|].
    inversion N as [|? ? Na Nl]; subst. destruct (in_split a s (I a (or_introl eq_refl))) as (s1 & s2 & ->).
    destruct (IH (s1 ++ s2) Nl) as (rest & P).
    { intros j Hj. pose proof (I j (or_intror Hj)) as K. apply in_app_or in K. apply in_or_app.
      destruct K as [K|[K|K]]; auto. subst j. contradiction. }
    exists rest. eapply Permutation_trans; [apply Permutation_sym, Permutation_middle|]. cbn. constructor. exact P. }
  destruct G as (rest & P). exists rest. split; [exact P|]. intros j Hj.
  assert (Hs : In j (seq 0 n)) by (eapply Permutation_in; [apply Permutation_sym, P|apply in_or_app; auto]).
  apply in_seq in Hs. apply Z; [lia|]. intros K.
  assert (ND : NoDup (map fst ws ++ rest)) by (eapply Permutation_NoDup; [exact P|apply seq_NoDup]).
  clear - Hj K ND. revert Hj K ND. generalize (map fst ws) as l. induction l as [|a l IH]; intros Hj K ND; [destruct K|destruct K as [K|K]].
  - subst a. cbn in ND. inversion ND as [|? ? Na]; subst. apply Na, in_or_app. auto.
  - cbn in ND. inversion ND; subst. auto.
Qed.

Lemma row_sums f n ws (g : nat -> R) : row_ws f n ws ->
  Rsum (map (fun j => f j * g j) (seq 0 n)) = Rsum (map (fun w => snd w * g (fst w)) ws) /\
  sizes (map (fun j => f j * g j) (seq 0 n)) = Rsum (map (fun w => Rabs (snd w * g (fst w))) ws) /\
  (nonzeros (map (fun j => f j * g j)%R (seq 0 n)) <= length ws)%nat.
Proof.
  intros H. destruct (row_split _ _ _ H) as (rest & P & Z). destruct H as (_ & F & _).
  assert (E : map (fun j => f j * g j) (map fst ws) = map (fun w => snd w * g (fst w)) ws).
  { rewrite map_map. apply map_ext_in. intros w Hw. rewrite Forall_forall in F. rewrite (proj2 (F w Hw)). reflexivity. }
  assert (ZZ : forall a, In a (map (fun j => f j * g j) rest) -> a = 0).
  { intros a Ha. apply in_map_iff in Ha as (j & <- & Hj). rewrite (Z j Hj). ring. }
  split; [|split].
  - rewrite (Rsum_perm _ _ (Permutation_map _ P)), map_app, Rsum_app, E.
    rewrite (Rsum_zero (fun j => f j * g j) rest); [ring|]. intros j Hj. rewrite (Z j Hj). ring.
  - unfold sizes. rewrite (Rsum_perm _ _ (Permutation_map Rabs (Permutation_map (fun j => f j * g j) P))), map_app, map_app, Rsum_app, E.
    rewrite (Rsum_zero Rabs (map (fun j => f j * g j) rest)); [rewrite map_map; ring|].
    intros a Ha. rewrite (ZZ a Ha). apply Rabs_R0.
  - unfold nonzeros. rewrite (Permutation_length (filter_perm _ _ _ (Permutation_map (fun j => f j * g j) P))).
    rewrite map_app, filter_app, app_length, E. rewrite (filter_zero (fun r => r) (map (fun j => f j * g j) rest) ZZ).
    cbn. rewrite Nat.add_0_r. rewrite <- (map_length (fun w => snd w * g (fst w)) ws).
    generalize (map (fun w => snd w * g (fst w)) ws). clear. intros l. induction l as [|a l IH]; cbn; [lia|]. destruct (negb _); cbn; lia.
Qed.

(** ** The rows of the interpolation matrices *)
Definition refine_ws (ws : list (nat * R)) : Prop :=
  (exists a b d, ws = [(a, 45 / 32); (b, - (9 / 16)); (d, 5 / 32)]) \/ (exists a b, ws = [(a, 3 / 4); (b, 1 / 4)]).

Lemma qe0 : qval edge0 = 45 / 32. Proof. unfold edge0. rewrite qval_frac. lra. Qed.
Lemma qe1 : qval edge1 = - (9 / 16). Proof. unfold edge1. rewrite qval_frac. lra. Qed.
Lemma qe2 : qval edge2 = 5 / 32. Proof. unfold edge2. rewrite qval_frac. lra. Qed.
Lemma q34 : qval threeq = 3 / 4. Proof. unfold threeq. rewrite qval_frac. lra. Qed.
Lemma q14 : qval oneq = 1 / 4. Proof. unfold oneq. rewrite qval_frac. lra. Qed.
Lemma qh : qval half = 1 / 2. Proof. unfold half. rewrite qval_frac. lra. Qed.

Ltac eqbs := repeat match goal with |- context [(?a =? ?b)%nat] => destruct (Nat.eqb_spec a b); try lia end.
Ltac entries := repeat (apply Forall_cons; [split; cbn [fst snd]|]); try apply Forall_nil; try lia; eqbs; cbn [orb];
  first [apply qe0|apply qe1|apply qe2|apply q34|apply q14|apply qh].
Lemma c2f_row c i : (3 <= c)%nat -> (i < 2 * c)%nat ->
  exists ws, refine_ws ws /\ row_ws (fun j => qval (c2f_entry c i j)) c ws.
Proof.
  intros Hc Hi. unfold c2f_entry. destruct (Nat.eqb_spec i 0) as [E|E]; [|destruct (Nat.eqb_spec i (2 * c - 1)) as [E1|E1]].
  - exists [(0%nat, 45 / 32); (1%nat, - (9 / 16)); (2%nat, 5 / 32)]. split; [left; eauto|]. split; [|split].
    + cbn. repeat constructor; cbn; lia.
    + entries.
    + cbn [map fst]. intros j Hj K. cbn [In] in K. eqbs. apply qval_0.
  - exists [((c - 1)%nat, 45 / 32); ((c - 2)%nat, - (9 / 16)); ((c - 3)%nat, 5 / 32)]. split; [left; eauto|]. split; [|split].
    + cbn. repeat constructor; cbn; lia.
    + entries.
    + cbn [map fst]. intros j Hj K. cbn [In] in K. eqbs. apply qval_0.
  - destruct (parity i) as (s & [Hs|Hs]); subst i; rewrite ?even_mod, ?odd_mod, ?even_div, ?odd_div; cbn [Nat.eqb].
    + exists [(s, 3 / 4); ((s - 1)%nat, 1 / 4)]. split; [right; eauto|]. split; [|split].
      * cbn. repeat constructor; cbn; lia.
      * entries.
      * cbn [map fst]. intros j Hj K. cbn [In] in K. eqbs. apply qval_0.
    + exists [(s, 3 / 4); ((s + 1)%nat, 1 / 4)]. split; [right; eauto|]. split; [|split].
      * cbn. repeat constructor; cbn; lia.
      * entries.
      * cbn [map fst]. intros j Hj K. cbn [In] in K. eqbs. apply qval_0.
Qed.

Lemma f2c_row c i : (i < c)%nat ->
  row_ws (fun j => qval (if (j =? 2 * i) || (j =? 2 * i + 1) then half else 0%Qc)%nat) (2 * c) [((2 * i)%nat, 1 / 2); ((2 * i + 1)%nat, 1 / 2)].
Proof.
  intros Hi. split; [|split].
  - cbn [map fst]. repeat constructor; cbn; lia.
  - entries.
  - cbn [map fst]. intros j Hj K. cbn [In] in K. eqbs; cbn [orb]; try apply qval_0; exfalso; lia.
Qed.

(** A row of four equal blocks is a row of one of them moved. *)
Definition moved (s : nat) (ws : list (nat * R)) : list (nat * R) := map (fun w => ((s + fst w)%nat, snd w)) ws.
Lemma four_row L M i : well_formed L -> four_diag L = Ok M -> (i < 4 * nr L)%nat -> nr L <> 0%nat ->
  forall ws, row_ws (fun j => qval (qent L (i mod nr L) j)) (nc L) ws ->
    exists s, (s + nc L <= 4 * nc L)%nat /\ row_ws (fun j => qval (qent M i j)) (4 * nc L) (moved s ws).
Proof.
  intros W E Hi N ws (ND & F & Z). unfold four_diag in E.
  rewrite blockDiagonalMatrix_ok in E by (intros d [<-|[<-|[<-|[<-|[]]]]]; exact W). apply Ok_inj in E. subst M.
  set (b := (i / nr L)%nat). exists (b * nc L)%nat.
  assert (Hb : (b < 4)%nat) by (apply Nat.div_lt_upper_bound; lia).
  assert (Ei : i = (b * nr L + i mod nr L)%nat) by (rewrite Nat.mul_comm; apply Nat.div_mod; exact N).
  pose proof (Nat.mod_upper_bound i (nr L) N) as Hm.
  split; [nia|].
  assert (Q : forall j, (j < 4 * nc L)%nat ->
    qent (mat_of (rows_of [L; L; L; L]) (cols_of [L; L; L; L]) (fun i j => match bdo [L; L; L; L] i j with Some x => x | None => 0%Qc end)) i j =
    if (b * nc L <=? j)%nat && (j <? b * nc L + nc L)%nat then qent L (i mod nr L) (j - b * nc L) else 0%Qc).
  { intros j Hj. rewrite mat_of_ent by (unfold rows_of, cols_of; cbn; lia).
    revert Ei Hm. generalize (i mod nr L)%nat as i'. intros i' Ei Hm. clearbody b. subst i. cbn [bdo].
    destruct b as [|[|[|[|b]]]]; [| | | |lia];
      repeat (match goal with |- context [(?x <? ?y)%nat] => destruct (Nat.ltb_spec x y); try lia
                            | |- context [(?x <=? ?y)%nat] => destruct (Nat.leb_spec x y); try lia end; cbn [andb]);
      try reflexivity; f_equal; lia. }
  split; [|split].
  - unfold moved. rewrite map_map. cbn [fst]. rewrite <- (map_map fst (fun j => (b * nc L + j)%nat)).
    apply FinFun.Injective_map_NoDup; [|exact ND]. intros x y K. lia.
  - unfold moved. apply Forall_forall. intros w Hw. apply in_map_iff in Hw as (w0 & <- & H0). cbn [fst snd].
    rewrite Forall_forall in F. destruct (F w0 H0) as (F1 & F2). split; [nia|].
    rewrite Q by nia. destruct (Nat.leb_spec (b * nc L) (b * nc L + fst w0)); [|lia].
    destruct (Nat.ltb_spec (b * nc L + fst w0) (b * nc L + nc L)); [|lia]. cbn [andb].
    replace (b * nc L + fst w0 - b * nc L)%nat with (fst w0) by lia. exact F2.
  - intros j Hj K. rewrite Q by exact Hj. destruct (Nat.leb_spec (b * nc L) j); cbn [andb]; [|apply qval_0].
    destruct (Nat.ltb_spec j (b * nc L + nc L)); [|apply qval_0]. apply Z; [lia|]. intros K'. apply K.
    unfold moved. rewrite map_map. cbn [fst]. apply in_map_iff in K' as (w & Ew & Hw). apply in_map_iff. exists w.
    split; [lia|exact Hw].
Qed.
