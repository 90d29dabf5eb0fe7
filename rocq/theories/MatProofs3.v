(** Block diagonal and special matrices. *)
From Coq Require Import Permutation.
From Verif Require Import Base VectorModel MatrixModel LinSpec MatProofs MatProofs2.

Lemma even_mod s : (2 * s) mod 2 = 0.
Proof. rewrite Nat.mul_comm. apply Nat.mod_mul. lia. Qed.
Lemma odd_mod s : (2 * s + 1) mod 2 = 1.
Proof. rewrite Nat.add_comm, Nat.mul_comm, Nat.mod_add by lia. reflexivity. Qed.
Lemma even_div s : (2 * s) / 2 = s.
Proof. rewrite Nat.mul_comm. apply Nat.div_mul. lia. Qed.
Lemma odd_div s : (2 * s + 1) / 2 = s.
Proof. rewrite Nat.add_comm, Nat.mul_comm, Nat.div_add by lia. reflexivity. Qed.
Lemma parity i : exists s, i = 2 * s \/ i = 2 * s + 1.
Proof. destruct (Nat.Even_or_Odd i) as [[s H]|[s H]]; exists s; auto. Qed.
Ltac parity i := let s := fresh "s" in destruct (parity i) as [s [?|?]]; subst i;
  rewrite ?even_mod, ?odd_mod, ?even_div, ?odd_div in *.

(** * Block diagonal *)
Fixpoint bdo (ds : list (matrix Qc)) (i j : nat) : option Qc :=
  match ds with
  | [] => None
  | d :: ds' =>
      if (i <? nr d) && (j <? nc d) then Some (qent d i j)
      else if (nr d <=? i) && (nc d <=? j) then bdo ds' (i - nr d) (j - nc d)
      else None
  end.

Definition rows_of (ds : list (matrix Qc)) := list_sum (map (fun d => nr d) ds).
Definition cols_of (ds : list (matrix Qc)) := list_sum (map (fun d => nc d) ds).

Lemma blockDiag_gen ds :
  (forall d, In d ds -> well_formed d) ->
  forall m r c, well_formed m -> r + rows_of ds <= nr m -> c + cols_of ds <= nc m ->
  foldM (fun (st : matrix Qc * nat * nat) d =>
          let '(m, r, c) := st in
          m' <- setBlock m r c d ;; Ok (m', r + nr d, c + nc d)) ds (m, r, c)
  = Ok (mat_of (nr m) (nc m) (fun i j =>
          match (if (r <=? i) && (c <=? j) then bdo ds (i - r) (j - c) else None) with
          | Some x => x | None => qent m i j end),
        r + rows_of ds, c + cols_of ds).
Proof.
  induction ds as [|d ds IH]; intros Hds m r c Hw Hr Hc.
  - cbn [foldM]. unfold rows_of, cols_of. simpl list_sum. rewrite !Nat.add_0_r.
    do 3 f_equal. apply (mat_is 0%Qc); auto. intros i j Hi Hj. simpl.
    destruct ((r <=? i) && (c <=? j)); reflexivity.
  - cbn [foldM]. unfold rows_of, cols_of in *. simpl list_sum in *.
    rewrite (setBlock_ok 0%Qc) by (auto; try (apply Hds; simpl; auto); lia).
    cbn [bind]. rewrite IH.
    + cbn [nr nc mat_of]. rewrite <- !Nat.add_assoc. do 3 f_equal.
      apply mat_of_ext. intros i j Hi Hj.
      rewrite mat_of_ent by auto. cbn [bdo]. unfold in_block.
      destruct (Nat.leb_spec r i); destruct (Nat.leb_spec c j); cbn [andb].
      * replace (i - (r + nr d)) with (i - r - nr d) by lia.
        replace (j - (c + nc d)) with (j - c - nc d) by lia.
        destruct (Nat.ltb_spec (i - r) (nr d)); destruct (Nat.ltb_spec (j - c) (nc d));
          cbn [andb]; bsolve; try reflexivity;
          destruct (bdo ds (i - r - nr d) (j - c - nc d)); reflexivity.
      * bsolve; reflexivity.
      * bsolve; reflexivity.
      * bsolve; reflexivity.
    + intros; apply Hds; simpl; auto.
    + apply mat_of_wf.
    + cbn [nr mat_of]. lia.
    + cbn [nc mat_of]. lia.
Qed.

Lemma blockDiagonalMatrix_ok ds :
  (forall d, In d ds -> well_formed d) ->
  blockDiagonalMatrix ds =
  Ok (mat_of (rows_of ds) (cols_of ds) (fun i j =>
        match bdo ds i j with Some x => x | None => 0%Qc end)).
Proof.
  intros Hds. unfold blockDiagonalMatrix. rewrite !sum_sizes_list_sum.
  fold (rows_of ds) (cols_of ds).
  rewrite (blockDiag_gen ds Hds) by (try apply mconst_wf; simpl; lia).
  cbn [bind fst nr nc mconst]. f_equal. apply mat_of_ext. intros i j Hi Hj.
  cbn [Nat.leb andb]. rewrite !Nat.sub_0_r.
  destruct (bdo ds i j); [reflexivity|].
  rewrite mconst_is. apply mat_of_ent; auto.
Qed.

(** * Diagonal and identity *)
Lemma foldM_diag (f : nat -> Qc) n k :
  k <= n ->
  foldM (fun m i => mset m i i (f i)) (seq 0 k) (mconst n n 0%Qc) =
  Ok (mat_of n n (fun i j => if (i =? j) && (i <? k) then f i else 0%Qc)).
Proof.
  induction k as [|k IH]; intros Hk.
  - simpl. rewrite mconst_is. f_equal. apply mat_of_ext. intros. bsolve; reflexivity.
  - rewrite seq_S, foldM_app, IH by lia. cbn [bind foldM]. change (0 + k) with k.
    rewrite mset_ok by (try apply mat_of_wf; cbn [nr nc mat_of]; lia). cbn [bind].
    f_equal. apply (mat_is 0%Qc); [apply mupd_wf, mat_of_wf|reflexivity|reflexivity|].
    intros i j Hi Hj.
    rewrite mupd_ent by (try apply mat_of_wf; cbn [nr nc mat_of]; lia).
    rewrite mat_of_ent by lia. bsolve; subst; try reflexivity; try lia.
Qed.

Lemma IdentityMatrix_ok n :
  IdentityMatrix n = Ok (mat_of n n (fun i j => delta i j)).
Proof.
  unfold IdentityMatrix. rewrite (foldM_diag (fun _ => 1%Qc)) by lia. f_equal.
  apply mat_of_ext. intros i j Hi Hj. unfold delta. bsolve; reflexivity.
Qed.

Lemma DiagonalMatrix_ok d :
  DiagonalMatrix d =
  Ok (mat_of (length d) (length d) (fun i j => if i =? j then vval d i else 0%Qc)).
Proof.
  unfold DiagonalMatrix.
  rewrite (foldM_ext _ (fun m i => mset m i i (vval d i))).
  - rewrite (foldM_diag (vval d)) by lia. f_equal. apply mat_of_ext.
    intros. bsolve; reflexivity.
  - intros s i Hi. apply in_seq in Hi. rewrite (vget_ok d i 0%Qc) by lia. reflexivity.
Qed.

(** * Loops in which a single index acts *)
Lemma foldM_none {S} (f : S -> nat -> res S) l s :
  (forall j, In j l -> f s j = Ok s) -> foldM f l s = Ok s.
Proof.
  induction l as [|a l IH]; intros H; [reflexivity|]. cbn [foldM].
  rewrite H by (simpl; auto). cbn [bind]. apply IH. intros; apply H; simpl; auto.
Qed.

Lemma foldM_one {S} (f : S -> nat -> res S) n k s s' :
  k < n ->
  (forall j, j < n -> j <> k -> f s j = Ok s) ->
  f s k = Ok s' ->
  (forall j, j < n -> j <> k -> f s' j = Ok s') ->
  foldM f (seq 0 n) s = Ok s'.
Proof.
  intros Hk H1 H2 H3.
  replace n with (k + (1 + (n - k - 1))) by lia.
  rewrite seq_app, foldM_app. rewrite foldM_none.
  2: { intros j Hj. apply in_seq in Hj. apply H1; lia. }
  cbn [bind]. rewrite seq_app, foldM_app. cbn [seq foldM]. rewrite Nat.add_0_l, H2. cbn [bind].
  apply foldM_none. intros j Hj. apply in_seq in Hj. apply H3; lia.
Qed.

(** * Fine to coarse *)
Lemma Fine2Coarse_ok n :
  Fine2Coarse n = Ok (mat_of n (2 * n) (fun i j =>
    if (j =? 2 * i) || (j =? 2 * i + 1) then half else 0%Qc)).
Proof.
  unfold Fine2Coarse.
  assert (H : forall k, k <= n ->
    foldM (fun m i => foldM (fun m j =>
      if j =? 2 * i then m1 <- mset m i j half ;; mset m1 i (j + 1) half
      else Ok m) (seq 0 (2 * n)) m) (seq 0 k) (mconst n (2 * n) 0%Qc) =
    Ok (mat_of n (2 * n) (fun i j =>
      if (i <? k) && ((j =? 2 * i) || (j =? 2 * i + 1)) then half else 0%Qc))).
  { induction k as [|k IH]; intros Hk.
    - cbn [seq foldM]. rewrite mconst_is. f_equal.
    - rewrite seq_S, foldM_app, IH by lia. cbn [bind foldM]. change (0 + k) with k.
      set (m0 := mat_of n (2 * n) (fun i j =>
        if (i <? k) && ((j =? 2 * i) || (j =? 2 * i + 1)) then half else 0%Qc)).
      assert (Hw0 : well_formed m0) by apply mat_of_wf.
      assert (Hw1 : well_formed (mupd m0 k (2 * k) half)) by (apply mupd_wf; auto).
      rewrite (foldM_one _ (2 * n) (2 * k) m0
                 (mupd (mupd m0 k (2 * k) half) k (2 * k + 1) half)).
      + cbn [bind]. f_equal. apply (mat_is 0%Qc); [apply mupd_wf; auto|reflexivity|reflexivity|].
        intros i j Hi Hj.
        rewrite !mupd_ent by (auto; unfold m0, mupd; cbn [nr nc mat_of]; lia).
        unfold m0. rewrite mat_of_ent by lia.
        bsolve; subst; try reflexivity; try lia.
      + lia.
      + intros j Hj Hne. bsolve. reflexivity.
      + rewrite Nat.eqb_refl.
        rewrite mset_ok by (auto; unfold m0; cbn [nr nc mat_of]; lia). cbn [bind].
        rewrite mset_ok by (auto; unfold m0, mupd; cbn [nr nc mat_of]; lia). reflexivity.
      + intros j Hj Hne. bsolve. reflexivity. }
  rewrite H by lia. f_equal. apply mat_of_ext. intros i j Hi Hj.
  destruct (Nat.ltb_spec i n); [reflexivity|lia].
Qed.

(** * Coarse to fine *)
Definition c2f_entry (c i j : nat) : Qc :=
  if i =? 0 then
    if j =? 0 then edge0 else if j =? 1 then edge1 else if j =? 2 then edge2 else 0%Qc
  else if i =? 2 * c - 1 then
    if j =? c - 1 then edge0 else if j =? c - 2 then edge1 else if j =? c - 3 then edge2 else 0%Qc
  else if i mod 2 =? 1 then
    if j =? i / 2 then threeq else if j =? i / 2 + 1 then oneq else 0%Qc
  else
    if j =? i / 2 then threeq else if j =? i / 2 - 1 then oneq else 0%Qc.

Lemma Coarse2Fine_ok c :
  3 <= c -> Coarse2Fine (2 * c) = Ok (mat_of (2 * c) c (c2f_entry c)).
Proof.
  intros Hc. unfold Coarse2Fine.
  rewrite even_div.
  match goal with |- foldM ?F _ _ = _ => set (body := F) end.
  set (written := fun i k : nat =>
    if i =? 0 then 1 <=? k else if i =? 2 * c - 1 then 2 * c <=? k
    else if i mod 2 =? 1 then i + 1 <=? k else i <=? k).
  assert (H : forall k, k <= 2 * c ->
    foldM body (seq 0 k) (mconst (2 * c) c 0%Qc) =
    Ok (mat_of (2 * c) c (fun i j => if written i k then c2f_entry c i j else 0%Qc))).
  { induction k as [|k IH]; intros Hk.
    - cbn [seq foldM]. rewrite mconst_is. f_equal. apply mat_of_ext. intros i j Hi Hj.
      unfold written. parity i; bsolve; reflexivity.
    - rewrite seq_S, foldM_app, IH by lia. cbn [bind foldM]. change (0 + k) with k.
      set (m0 := mat_of (2 * c) c (fun i j => if written i k then c2f_entry c i j else 0%Qc)).
      assert (Hr : forall m, nr m = 2 * c -> forall i j x, nr (@mupd Qc m i j x) = 2 * c) by auto.
      assert (Hcc : forall m, nc m = c -> forall i j x, nc (@mupd Qc m i j x) = c) by auto.
      assert (Hr0 : nr m0 = 2 * c) by reflexivity.
      assert (Hc0 : nc m0 = c) by reflexivity.
      assert (Hw0 : well_formed m0) by apply mat_of_wf.
      assert (Hent : forall i j, i < 2 * c -> j < c ->
        qent m0 i j = if written i k then c2f_entry c i j else 0%Qc)
        by (intros; unfold m0; apply mat_of_ent; auto).
      clearbody m0.
      assert (Hstep : forall m', body m0 k = Ok m' -> well_formed m' -> nr m' = 2 * c ->
         nc m' = c -> (forall i j, i < 2 * c -> j < c ->
           qent m' i j = if written i (k + 1) then c2f_entry c i j else 0%Qc) ->
         (m'' <- body m0 k ;; Ok m'') = Ok (mat_of (2 * c) c (fun i j =>
            if written i (S k) then c2f_entry c i j else 0%Qc))).
      { intros m' E W R C0 En. rewrite E. cbn [bind]. f_equal. apply (mat_is 0%Qc); auto.
        intros. rewrite En by auto. rewrite Nat.add_1_r. reflexivity. }
      destruct (Nat.eq_dec k 0) as [->|Hk0].
      + (* first row *)
        eapply Hstep with (m' := mupd (mupd (mupd m0 0 0 edge0) 0 1 edge1) 0 2 edge2).
        * unfold body. apply (foldM_one _ c 0); [lia| | |].
          -- intros j Hj Hne. bsolve; try reflexivity.
          -- cbn [Nat.eqb andb].
             rewrite mset_ok by (auto; lia). cbn [bind].
             rewrite mset_ok by (auto using mupd_wf; rewrite ?Hr, ?Hcc; auto; lia). cbn [bind].
             rewrite mset_ok by (auto using mupd_wf; rewrite ?Hr, ?Hcc; auto; lia). reflexivity.
          -- intros j Hj Hne. bsolve; try reflexivity.
        * auto using mupd_wf.
        * auto.
        * auto.
        * intros i j Hi Hj.
          rewrite !mupd_ent by (auto using mupd_wf; rewrite ?Hr, ?Hcc; auto; lia).
          rewrite Hent by auto. unfold written, c2f_entry.
          parity i; bsolve; subst; try reflexivity; try lia.
      + destruct (Nat.eq_dec k (2 * c - 1)) as [Hlast|Hlast].
        * (* last row *)
          eapply Hstep with
            (m' := mupd (mupd (mupd m0 k (c - 3) edge2) k (c - 2) edge1) k (c - 1) edge0).
          -- unfold body. apply (foldM_one _ c (c - 3)); [lia| | |].
             ++ intros j Hj Hne. bsolve; try reflexivity.
             ++ replace (k =? 0) with false by (symmetry; apply Nat.eqb_neq; lia).
                replace (k =? 2 * c - 1) with true by (symmetry; apply Nat.eqb_eq; lia).
                replace (3 <=? c) with true by (symmetry; apply Nat.leb_le; lia).
                rewrite Nat.eqb_refl. cbn [andb].
                rewrite mset_ok by (auto; lia). cbn [bind].
                replace (c - 3 + 1) with (c - 2) by lia. replace (c - 3 + 2) with (c - 1) by lia.
                rewrite mset_ok by (auto using mupd_wf; rewrite ?Hr, ?Hcc; auto; lia). cbn [bind].
                rewrite mset_ok by (auto using mupd_wf; rewrite ?Hr, ?Hcc; auto; lia). reflexivity.
             ++ intros j Hj Hne. bsolve; try reflexivity.
          -- auto using mupd_wf.
          -- auto.
          -- auto.
          -- intros i j Hi Hj.
             rewrite !mupd_ent by (auto using mupd_wf; rewrite ?Hr, ?Hcc; auto; lia).
             rewrite Hent by auto. unfold written, c2f_entry.
             parity i; bsolve; subst; try reflexivity; try lia.
        * destruct (parity k) as [t [Ht|Ht]]; cycle 1.
          -- (* odd row *)
             eapply Hstep with (m' := mupd (mupd (mupd (mupd m0 k t threeq) k (t + 1) oneq)
                                    (k + 1) t oneq) (k + 1) (t + 1) threeq).
             ++ unfold body. apply (foldM_one _ c t); [lia| | |].
                ** intros j Hj Hne. bsolve; try reflexivity.
                ** replace (k =? 0) with false by (symmetry; apply Nat.eqb_neq; lia).
                   replace (k =? 2 * c - 1) with false by (symmetry; apply Nat.eqb_neq; lia).
                   replace (k =? 2 * t + 1) with true by (symmetry; apply Nat.eqb_eq; lia).
                   replace (k mod 2 =? 1) with true by (rewrite Ht, odd_mod; reflexivity).
                   cbn [andb negb].
                   rewrite mset_ok by (auto; lia). cbn [bind].
                   do 2 (rewrite mset_ok by (auto using mupd_wf; rewrite ?Hr, ?Hcc; auto; lia); cbn [bind]).
                   rewrite mset_ok by (auto 6 using mupd_wf; rewrite ?Hr, ?Hcc; auto; lia). reflexivity.
                ** intros j Hj Hne. bsolve; try reflexivity.
             ++ auto 6 using mupd_wf.
             ++ auto.
             ++ auto.
             ++ intros i j Hi Hj.
                rewrite !mupd_ent by (auto 6 using mupd_wf; rewrite ?Hr, ?Hcc; auto; lia).
                rewrite Hent by auto. unfold written, c2f_entry.
                parity i; bsolve; subst; try reflexivity; try lia.
          -- (* even row: nothing *)
             eapply Hstep with (m' := m0); auto.
             ++ unfold body. apply foldM_none. intros j Hj. apply in_seq in Hj.
                rewrite Ht. rewrite even_mod. bsolve; try reflexivity.
             ++ intros i j Hi Hj. rewrite Hent by auto. unfold written, c2f_entry.
                parity i; bsolve; subst; try reflexivity; try lia. }
  rewrite H by lia. f_equal. apply mat_of_ext. intros i j Hi Hj. unfold written.
  parity i; bsolve; reflexivity.
Qed.
