(** An executable Gaussian elimination over [Qc] that satisfies the contract
    assumed of LAPACK's DGESV.  It models no code in /repo: it shows that the
    contract can be met, and it lets examples be computed. *)
From Coq Require Import Permutation.
From Verif Require Import Base VectorModel MatrixModel LinSpec MatProofs.

Notation hd0 := (hd 0%Qc).

(** A row is a list of coefficients and a right-hand side. *)
Definition row : Type := (list Qc * Qc)%type.

(** Splits at the first row whose leading coefficient is not zero. *)
Fixpoint find_pivot (rows : list row) : option (list row * row * list row) :=
  match rows with
  | [] => None
  | r :: rs =>
      if Qc_eq_dec (hd0 (fst r)) 0 then
        match find_pivot rs with
        | Some (pre, p, post) => Some (r :: pre, p, post)
        | None => None
        end
      else Some ([], r, rs)
  end.

Definition eliminate (n : nat) (p r : row) : row :=
  let c := (hd0 (fst r) / hd0 (fst p))%Qc in
  (map (fun j => nth (S j) (fst r) 0 - c * nth (S j) (fst p) 0)%Qc (seq 0 n),
   (snd r - c * snd p)%Qc).

Fixpoint gauss (n : nat) (rows : list row) : option (list Qc) :=
  match n with
  | O => Some []
  | S n' =>
      match find_pivot rows with
      | None => None
      | Some (pre, p, post) =>
          match gauss n' (map (eliminate n' p) (pre ++ post)) with
          | None => None
          | Some xs =>
              Some (((snd p - sum n' (fun j => nth (S j) (fst p) 0 * nth j xs 0)) / hd0 (fst p))%Qc
                    :: xs)
          end
      end
  end.

Definition rdot (n : nat) (r : list Qc) (z : nat -> Qc) : Qc :=
  sum n (fun j => nth j r 0 * z j)%Qc.

Lemma sum_S_l n f : sum (S n) f = (f 0%nat + sum n (fun i => f (S i)))%Qc.
Proof. change (S n) with (1 + n). rewrite sum_app. simpl. ring. Qed.

Lemma find_pivot_some rows pre p post :
  find_pivot rows = Some (pre, p, post) ->
  rows = pre ++ p :: post /\ hd0 (fst p) <> 0%Qc.
Proof.
  revert pre; induction rows as [|r rs IH]; simpl; intros pre H; [discriminate|].
  destruct (Qc_eq_dec (hd0 (fst r)) 0) as [E|E].
  - destruct (find_pivot rs) as [[[pre' p'] post']|]; [|discriminate].
    inversion H; subst. destruct (IH pre' eq_refl) as (-> & Hp). auto.
  - inversion H; subst. auto.
Qed.

Lemma find_pivot_none rows r :
  find_pivot rows = None -> In r rows -> hd0 (fst r) = 0%Qc.
Proof.
  induction rows as [|r' rs IH]; simpl; intros H Hin; [contradiction|].
  destruct (Qc_eq_dec (hd0 (fst r')) 0) as [E|E]; [|discriminate].
  destruct Hin as [->|Hin]; auto. apply IH; auto.
  destruct (find_pivot rs) as [[[? ?] ?]|]; [discriminate|reflexivity].
Qed.

Lemma nth0_hd (l : list Qc) : nth 0 l 0%Qc = hd0 l.
Proof. destruct l; reflexivity. Qed.

Lemma rdot_eliminate n p r z :
  hd0 (fst p) <> 0%Qc ->
  (rdot n (fst (eliminate n p r)) z =
   rdot (S n) (fst r) (fun j => match j with O => 0 | S k => z k end)
   - hd0 (fst r) / hd0 (fst p) * rdot (S n) (fst p) (fun j => match j with O => 0 | S k => z k end))%Qc.
Proof.
  intros Hp. unfold rdot. rewrite !sum_S_l.
  transitivity (sum n (fun j => nth (S j) (fst r) 0 * z j)%Qc
    - (hd0 (fst r) / hd0 (fst p)) * sum n (fun j => nth (S j) (fst p) 0 * z j)%Qc)%Qc.
  - rewrite <- sum_scal_l, <- sum_minus. apply sum_ext. intros j Hj.
    simpl fst. rewrite nth_map_seq by auto. ring.
  - ring.
Qed.

Lemma gauss_length n rows xs : gauss n rows = Some xs -> length xs = n.
Proof.
  revert rows xs; induction n as [|n IH]; simpl; intros rows xs H.
  - inversion H; reflexivity.
  - destruct (find_pivot rows) as [[[pre p] post]|]; [|discriminate].
    destruct (gauss n _) as [ys|] eqn:E; [|discriminate].
    inversion H; subst. simpl. f_equal. eauto.
Qed.

Lemma rdot_split n r z :
  (rdot (S n) r z = hd0 r * z 0%nat + sum n (fun j => nth (S j) r 0 * z (S j)))%Qc.
Proof. unfold rdot. rewrite sum_S_l, nth0_hd. reflexivity. Qed.

Lemma gauss_solves n rows xs :
  length rows = n ->
  gauss n rows = Some xs ->
  forall r, In r rows -> rdot n (fst r) (fun j => nth j xs 0%Qc) = snd r.
Proof.
  revert rows xs; induction n as [|n IH]; intros rows xs Hl H r Hr.
  - destruct rows; [contradiction|discriminate].
  - cbn [gauss] in H. destruct (find_pivot rows) as [[[pre p] post]|] eqn:Ep; [|discriminate].
    apply find_pivot_some in Ep as (-> & Hp).
    destruct (gauss n _) as [ys|] eqn:E; [|discriminate]. injection H as <-.
    assert (Hl' : length (map (eliminate n p) (pre ++ post)) = n).
    { rewrite map_length. rewrite app_length in *. simpl in Hl. lia. }
    specialize (IH _ _ Hl' E).
    set (x0 := ((snd p - sum n (fun j => nth (S j) (fst p) 0 * nth j ys 0)) / hd0 (fst p))%Qc) in *.
    assert (Hpiv : rdot (S n) (fst p) (fun j => nth j (x0 :: ys) 0%Qc) = snd p).
    { rewrite rdot_split. cbn [nth]. unfold x0. field. auto. }
    apply in_app_iff in Hr. destruct Hr as [Hr|[<-|Hr]]; auto.
    + assert (Hin : In (eliminate n p r) (map (eliminate n p) (pre ++ post)))
        by (apply in_map, in_app_iff; auto).
      specialize (IH _ Hin). rewrite rdot_eliminate in IH by auto.
      rewrite rdot_split in Hpiv |- *. rewrite !rdot_split in IH. cbn [nth snd eliminate] in *.
      assert (Hx : (snd r = hd0 (fst r) / hd0 (fst p) * snd p
          + (sum n (fun j => nth (S j) (fst r) 0 * nth j ys 0)
             - hd0 (fst r) / hd0 (fst p) * sum n (fun j => nth (S j) (fst p) 0 * nth j ys 0)))%Qc).
      { transitivity ((snd r - hd0 (fst r) / hd0 (fst p) * snd p) + hd0 (fst r) / hd0 (fst p) * snd p)%Qc;
          [ring|]. rewrite <- IH. ring. }
      rewrite Hx, <- Hpiv. field. auto.
    + assert (Hin : In (eliminate n p r) (map (eliminate n p) (pre ++ post)))
        by (apply in_map, in_app_iff; auto).
      specialize (IH _ Hin). rewrite rdot_eliminate in IH by auto.
      rewrite rdot_split in Hpiv |- *. rewrite !rdot_split in IH. cbn [nth snd eliminate] in *.
      assert (Hx : (snd r = hd0 (fst r) / hd0 (fst p) * snd p
          + (sum n (fun j => nth (S j) (fst r) 0 * nth j ys 0)
             - hd0 (fst r) / hd0 (fst p) * sum n (fun j => nth (S j) (fst p) 0 * nth j ys 0)))%Qc).
      { transitivity ((snd r - hd0 (fst r) / hd0 (fst p) * snd p) + hd0 (fst r) / hd0 (fst p) * snd p)%Qc;
          [ring|]. rewrite <- IH. ring. }
      rewrite Hx, <- Hpiv. field. auto.
Qed.

(** Success does not depend on the right-hand side. *)
Lemma gauss_some_indep n rows rows' :
  map fst rows = map fst rows' ->
  (gauss n rows = None <-> gauss n rows' = None).
Proof.
  revert rows rows'; induction n as [|n IH]; intros rows rows' H; [split; discriminate|].
  assert (Hfp : forall l l' : list row, map fst l = map fst l' ->
     match find_pivot l, find_pivot l' with
     | Some (a, p, b), Some (a', p', b') =>
         map fst a = map fst a' /\ fst p = fst p' /\ map fst b = map fst b'
     | None, None => True
     | _, _ => False
     end).
  { induction l as [|r l IHl]; destruct l' as [|r' l']; simpl; intros E; try discriminate; auto.
    injection E as E1 E2. rewrite E1. destruct (Qc_eq_dec (hd0 (fst r')) 0).
    - specialize (IHl l' E2). destruct (find_pivot l) as [[[? ?] ?]|], (find_pivot l') as [[[? ?] ?]|]; auto.
      destruct IHl as (A & B & C). simpl. rewrite E1, A. auto.
    - auto. }
  cbn [gauss]. specialize (Hfp rows rows' H).
  destruct (find_pivot rows) as [[[a p] b]|], (find_pivot rows') as [[[a' p'] b']|];
    try contradiction; [|tauto].
  destruct Hfp as (Ha & Hp & Hb).
  assert (E : map fst (map (eliminate n p) (a ++ b)) = map fst (map (eliminate n p') (a' ++ b'))).
  { set (ec := fun pf rf : list Qc => map (fun j => nth (S j) rf 0
        - hd0 rf / hd0 pf * nth (S j) pf 0)%Qc (seq 0 n)).
    assert (Hec : forall p l, map fst (map (eliminate n p) l) = map (ec (fst p)) (map fst l))
      by (intros; rewrite !map_map; reflexivity).
    rewrite !Hec, Hp. f_equal. rewrite !map_app. f_equal; auto. }
  specialize (IH _ _ E).
  destruct (gauss n (map (eliminate n p) (a ++ b))), (gauss n (map (eliminate n p') (a' ++ b')));
    destruct IH as [I1 I2]; split; intros; try discriminate; auto.
  - specialize (I2 eq_refl); discriminate.
  - specialize (I1 eq_refl); discriminate.
Qed.

(** Success means nonsingular, failure means singular. *)
Lemma gauss_some_kernel n rows xs :
  length rows = n -> gauss n rows = Some xs ->
  forall z, (forall r, In r rows -> rdot n (fst r) z = 0%Qc) -> forall j, j < n -> z j = 0%Qc.
Proof.
  revert rows xs; induction n as [|n IH]; intros rows xs Hl H z Hz j Hj; [lia|].
  cbn [gauss] in H. destruct (find_pivot rows) as [[[pre p] post]|] eqn:Ep; [|discriminate].
  apply find_pivot_some in Ep as (-> & Hp).
  destruct (gauss n _) as [ys|] eqn:E; [|discriminate].
  assert (Hl' : length (map (eliminate n p) (pre ++ post)) = n).
  { rewrite map_length. rewrite app_length in *. simpl in Hl. lia. }
  assert (Hpz : rdot (S n) (fst p) z = 0%Qc) by (apply Hz, in_app_iff; simpl; auto).
  rewrite rdot_split in Hpz.
  assert (Hz' : forall k, k < n -> z (S k) = 0%Qc).
  { intros k Hk. apply (IH _ _ Hl' E (fun k => z (S k))); auto.
    intros r' Hr'. apply in_map_iff in Hr' as (r & <- & Hr).
    assert (Hrz : rdot (S n) (fst r) z = 0%Qc).
    { apply Hz. apply in_app_iff in Hr. apply in_app_iff. simpl. tauto. }
    rewrite rdot_split in Hrz. rewrite rdot_eliminate, !rdot_split by auto.
    set (A := sum n (fun j => nth (S j) (fst r) 0 * z (S j))%Qc) in *.
    set (B := sum n (fun j => nth (S j) (fst p) 0 * z (S j))%Qc) in *.
    assert (HA : A = (- (hd0 (fst r) * z 0%nat))%Qc)
      by (transitivity (hd0 (fst r) * z 0%nat + A - hd0 (fst r) * z 0%nat)%Qc; [ring|rewrite Hrz; ring]).
    assert (HB : B = (- (hd0 (fst p) * z 0%nat))%Qc)
      by (transitivity (hd0 (fst p) * z 0%nat + B - hd0 (fst p) * z 0%nat)%Qc; [ring|rewrite Hpz; ring]).
    rewrite HA, HB. field. auto. }
  destruct j as [|j]; [|apply Hz'; lia].
  rewrite sum_zero in Hpz.
  - assert (Hm : (hd0 (fst p) * z 0%nat = 0)%Qc) by (rewrite Qcplus_0_r in Hpz; exact Hpz).
    apply Qcmult_integral in Hm. tauto.
  - intros k Hk. rewrite Hz' by auto. ring.
Qed.

Lemma gauss_none_kernel n rows :
  length rows = n -> gauss n rows = None ->
  exists z, (forall r, In r rows -> rdot n (fst r) z = 0%Qc) /\ exists j, j < n /\ z j <> 0%Qc.
Proof.
  revert rows; induction n as [|n IH]; intros rows Hl H; [discriminate|].
  cbn [gauss] in H. destruct (find_pivot rows) as [[[pre p] post]|] eqn:Ep.
  - apply find_pivot_some in Ep as (-> & Hp).
    destruct (gauss n _) as [ys|] eqn:E; [discriminate|].
    assert (Hl' : length (map (eliminate n p) (pre ++ post)) = n).
    { rewrite map_length. rewrite app_length in *. simpl in Hl. lia. }
    destruct (IH _ Hl' E) as (z & Hz & j & Hj & Hne).
    set (B := sum n (fun j => nth (S j) (fst p) 0 * z j)%Qc).
    exists (fun k => match k with O => (- B / hd0 (fst p))%Qc | S k => z k end). split.
    + assert (Hin : forall r, In r (pre ++ post) -> rdot (S n) (fst r)
         (fun k => match k with O => (- B / hd0 (fst p))%Qc | S k => z k end) = 0%Qc).
      { intros r Hr. specialize (Hz _ (in_map (eliminate n p) _ _ Hr)).
        rewrite rdot_eliminate, !rdot_split in Hz by auto. rewrite rdot_split.
        fold B in Hz. set (A := sum n (fun j => nth (S j) (fst r) 0 * z j)%Qc) in *.
        assert (HA : A = (hd0 (fst r) / hd0 (fst p) * B)%Qc).
        { transitivity ((hd0 (fst r) * 0 + A - hd0 (fst r) / hd0 (fst p) * (hd0 (fst p) * 0 + B))
            + hd0 (fst r) / hd0 (fst p) * B)%Qc; [ring|rewrite Hz; ring]. }
        rewrite HA. field. auto. }
      intros r Hr. apply in_app_iff in Hr. destruct Hr as [Hr|[<-|Hr]].
      * apply Hin, in_app_iff; auto.
      * rewrite rdot_split. fold B. field. auto.
      * apply Hin, in_app_iff; auto.
    + exists (S j). split; [lia|auto].
  - exists (fun k => match k with O => 1%Qc | S _ => 0%Qc end). split.
    + intros r Hr. rewrite rdot_split, (find_pivot_none _ _ Ep Hr).
      rewrite sum_zero; [ring|]. intros; ring.
    + exists 0. split; [lia|]. discriminate.
Qed.

(** * DGESV *)
Definition gesv_rows (n : nat) (a : list Qc) (rhs : nat -> Qc) : list row :=
  map (fun i => (map (fun j => vval a (i + j * n)) (seq 0 n), rhs i)) (seq 0 n).

Definition gauss_gesv : gesv_t := fun n nrhs a b =>
  match gauss n (gesv_rows n a (fun _ => 0%Qc)) with
  | None => (b, 1%Z)
  | Some _ =>
      (concat (map (fun k =>
         match gauss n (gesv_rows n a (fun i => vval b (i + k * n))) with
         | Some x => x
         | None => repeat 0%Qc n
         end) (seq 0 nrhs)), 0%Z)
  end.

Lemma gesv_rows_fst n a f g : map fst (gesv_rows n a f) = map fst (gesv_rows n a g).
Proof. unfold gesv_rows. rewrite !map_map. reflexivity. Qed.

Lemma gesv_rows_length n a f : length (gesv_rows n a f) = n.
Proof. unfold gesv_rows. rewrite map_length, seq_length. reflexivity. Qed.

Lemma gesv_rows_in n a f i :
  i < n -> In (map (fun j => vval a (i + j * n)) (seq 0 n), f i) (gesv_rows n a f).
Proof.
  intros Hi. unfold gesv_rows.
  apply (in_map (fun i => (map (fun j => vval a (i + j * n)) (seq 0 n), f i))).
  apply in_seq. lia.
Qed.

Lemma rdot_row n a i z :
  i < n -> rdot n (map (fun j => vval a (i + j * n)) (seq 0 n)) z =
  sum n (fun j => vval a (i + j * n) * z j)%Qc.
Proof.
  intros Hi. apply sum_ext. intros j Hj. rewrite nth_map_seq by auto. reflexivity.
Qed.

Lemma gauss_col_nonsingular n a f :
  col_nonsingular n a <-> gauss n (gesv_rows n a f) <> None.
Proof.
  split.
  - intros H E.
    destruct (gauss_none_kernel n _ (gesv_rows_length n a f) E) as (z & Hz & j & Hj & Hne).
    apply Hne, H; auto. intros i Hi. rewrite <- rdot_row by auto.
    apply (Hz _ (gesv_rows_in n a f i Hi)).
  - intros H z Hz. destruct (gauss n (gesv_rows n a f)) as [xs|] eqn:E; [|congruence].
    apply (gauss_some_kernel n _ xs (gesv_rows_length n a f) E).
    intros r Hr. unfold gesv_rows in Hr. apply in_map_iff in Hr as (i & <- & Hi).
    apply in_seq in Hi. cbn [fst]. rewrite rdot_row by lia. apply Hz. lia.
Qed.

Lemma gauss_gesv_contract : gesv_contract gauss_gesv.
Proof.
  split.
  - intros n nrhs a b Hn Ha Hb Hns. unfold gauss_gesv.
    pose proof (proj1 (gauss_col_nonsingular n a (fun _ => 0%Qc)) Hns) as H0.
    destruct (gauss n (gesv_rows n a (fun _ => 0%Qc))) as [x0|]; [|congruence].
    assert (Hk : forall k, exists x, gauss n (gesv_rows n a (fun i => vval b (i + k * n))) = Some x).
    { intros k. pose proof (proj1 (gauss_col_nonsingular n a (fun i => vval b (i + k * n))) Hns) as H1.
      destruct (gauss n _); [eauto|congruence]. }
    set (cols := map _ (seq 0 nrhs)).
    assert (Hc : forall l, In l cols -> length l = n).
    { intros l Hl. apply in_map_iff in Hl as (k & <- & _). destruct (Hk k) as (x & E).
      rewrite E. apply gauss_length in E. auto. }
    assert (Hlen : length cols = nrhs) by (unfold cols; rewrite map_length, seq_length; auto).
    repeat split.
    + rewrite (concat_rows_length n) by auto. lia.
    + intros i k Hi Hkk.
      transitivity (sum n (fun j => vval a (i + j * n) * nth j (nth k cols []) 0)%Qc).
      * apply sum_ext. intros j Hj. f_equal. unfold vval. rewrite Nat.add_comm.
        apply nth_concat_rows; auto. lia.
      * unfold cols. rewrite (nth_map_seq (fun k => match gauss n (gesv_rows n a
            (fun i => vval b (i + k * n))) with Some x => x | None => repeat 0%Qc n end)) by auto.
        destruct (Hk k) as (x & E). rewrite E.
        pose proof (gauss_solves n _ x (gesv_rows_length n a _) E _
                     (gesv_rows_in n a (fun i => vval b (i + k * n)) i Hi)) as H1.
        cbn [fst snd] in H1. rewrite rdot_row in H1 by auto. exact H1.
  - intros n nrhs a b Hn Ha Hb Hs. unfold gauss_gesv.
    destruct (gauss n (gesv_rows n a (fun _ => 0%Qc))) as [x0|] eqn:E; [|split; [lia|reflexivity]].
    exfalso. apply Hs. apply (gauss_col_nonsingular n a (fun _ => 0%Qc)). congruence.
Qed.
