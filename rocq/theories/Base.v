(** Common definitions: results of calls, monadic loops, exact scalars, finite
    sums.  Nothing in this file models a particular routine. *)
From Coq Require Export List Arith ZArith Lia Bool.
From Coq Require Export QArith Qcanon Qfield.
From Coq Require Import Permutation.
Export ListNotations.
Global Open Scope nat_scope.

(** ** Outcome of a C++ call *)

Inductive exn : Type :=
| out_of_range
| invalid_argument
| runtime_error
| bad_variant_access
| length_error
| bad_alloc
| illegal_blas_argument.

(** [Ok a]: normal return.  [Throw e]: a C++ exception propagates to the caller.
    [UB]: the code performs an operation with undefined behaviour. *)
Inductive res (A : Type) : Type :=
| Ok (a : A)
| Throw (e : exn)
| UB.
Arguments Ok {A} _.
Arguments Throw {A} _.
Arguments UB {A}.

Definition bind {A B : Type} (m : res A) (k : A -> res B) : res B :=
  match m with
  | Ok a => k a
  | Throw e => Throw e
  | UB => UB
  end.

Declare Scope res_scope.
Delimit Scope res_scope with res.
Notation "x <- m ;; k" := (bind m (fun x => k))
  (at level 61, m at next level, right associativity) : res_scope.
Notation "' p <- m ;; k" := (bind m (fun p => k))
  (at level 61, p pattern, m at next level, right associativity) : res_scope.
Global Open Scope res_scope.

Definition is_ok {A} (m : res A) : Prop := exists a, m = Ok a.

Lemma bind_Ok {A B} (a : A) (k : A -> res B) : bind (Ok a) k = k a.
Proof. reflexivity. Qed.

Lemma bind_assoc {A B C} (m : res A) (f : A -> res B) (g : B -> res C) :
  bind (bind m f) g = bind m (fun a => bind (f a) g).
Proof. destruct m; reflexivity. Qed.

Lemma bind_inv {A B} (m : res A) (k : A -> res B) (b : B) :
  bind m k = Ok b -> exists a, m = Ok a /\ k a = Ok b.
Proof. destruct m; simpl; intros; try discriminate; eauto. Qed.

Lemma Ok_inj {A} (a b : A) : Ok a = Ok b -> a = b.
Proof. congruence. Qed.

(** A loop that produces one value per element of [l], in order. *)
Fixpoint mapM {A B} (f : A -> res B) (l : list A) : res (list B) :=
  match l with
  | [] => Ok []
  | a :: l' => b <- f a ;; bs <- mapM f l' ;; Ok (b :: bs)
  end.

(** A loop over [l] that updates a state, in order. *)
Fixpoint foldM {A S} (f : S -> A -> res S) (l : list A) (s : S) : res S :=
  match l with
  | [] => Ok s
  | a :: l' => s' <- f s a ;; foldM f l' s'
  end.

Lemma mapM_ok {A B} (f : A -> res B) (g : A -> B) l :
  (forall a, In a l -> f a = Ok (g a)) -> mapM f l = Ok (map g l).
Proof.
  induction l as [|a l IH]; simpl; intros H; [reflexivity|].
  rewrite (H a) by auto. simpl. rewrite IH by auto. reflexivity.
Qed.

Lemma mapM_length {A B} (f : A -> res B) l r :
  mapM f l = Ok r -> length r = length l.
Proof.
  revert r; induction l as [|a l IH]; simpl; intros r H.
  - inversion H; reflexivity.
  - apply bind_inv in H as (b & _ & H). apply bind_inv in H as (bs & Hbs & H).
    inversion H; subst; simpl. f_equal; auto.
Qed.

Lemma foldM_app {A S} (f : S -> A -> res S) l1 l2 s :
  foldM f (l1 ++ l2) s = (s' <- foldM f l1 s ;; foldM f l2 s').
Proof.
  revert s; induction l1 as [|a l1 IH]; simpl; intros s; [reflexivity|].
  rewrite bind_assoc. destruct (f s a); simpl; auto.
Qed.

Lemma foldM_ok {A S} (f : S -> A -> res S) (g : S -> A -> S) l s (P : S -> Prop) :
  P s ->
  (forall s a, In a l -> P s -> f s a = Ok (g s a) /\ P (g s a)) ->
  foldM f l s = Ok (fold_left g l s) /\ P (fold_left g l s).
Proof.
  revert s; induction l as [|a l IH]; simpl; intros s Hs H; [auto|].
  destruct (H s a) as [E Hp]; auto. rewrite E; simpl. apply IH; auto.
Qed.

Lemma foldM_ext {A S} (f g : S -> A -> res S) l s :
  (forall s a, In a l -> f s a = g s a) -> foldM f l s = foldM g l s.
Proof.
  revert s; induction l as [|a l IH]; simpl; intros s H; [reflexivity|].
  rewrite H by auto. destruct (g s a); simpl; auto.
Qed.

(** ** Exact scalars

    [double] is modelled by the field of rational numbers; every finite double
    is a rational number, and no rounding takes place in the model. *)
Ltac Qccst t :=
  match t with
  | Q2Qc (?n # ?d) =>
      match isZcst n with
      | true => match isPcst d with
                | true => constr:(t)
                | _ => constr:(InitialRing.NotConstant)
                end
      | _ => constr:(InitialRing.NotConstant)
      end
  | _ => constr:(InitialRing.NotConstant)
  end.
Add Field QcF : Qcft (decidable Qc_eq_bool_correct, constants [Qccst]).

Definition q2 : Qc := Q2Qc (2 # 1).
Definition Qc_of_Z (z : Z) : Qc := Q2Qc (inject_Z z).
Definition Qc_of_nat (n : nat) : Qc := Qc_of_Z (Z.of_nat n).

Lemma Qc_of_Z_add a b : Qc_of_Z (a + b) = (Qc_of_Z a + Qc_of_Z b)%Qc.
Proof.
  unfold Qc_of_Z. apply Qc_is_canon. cbn [this Q2Qc Qcplus Qcmult Qcopp].
  rewrite !Qred_correct. rewrite inject_Z_plus. reflexivity.
Qed.

Lemma Qc_of_Z_mul a b : Qc_of_Z (a * b) = (Qc_of_Z a * Qc_of_Z b)%Qc.
Proof.
  unfold Qc_of_Z. apply Qc_is_canon. cbn [this Q2Qc Qcplus Qcmult Qcopp].
  rewrite !Qred_correct. rewrite inject_Z_mult. reflexivity.
Qed.

Lemma Qc_of_Z_opp a : Qc_of_Z (- a) = (- Qc_of_Z a)%Qc.
Proof.
  unfold Qc_of_Z. apply Qc_is_canon. cbn [this Q2Qc Qcplus Qcmult Qcopp].
  rewrite !Qred_correct. rewrite inject_Z_opp. reflexivity.
Qed.

Lemma Qc_of_Z_inj a b : Qc_of_Z a = Qc_of_Z b -> a = b.
Proof.
  unfold Qc_of_Z. intros H. apply Q2Qc_eq_iff in H.
  unfold Qeq, inject_Z in H. simpl in H. lia.
Qed.

Lemma Qc_of_nat_add a b : Qc_of_nat (a + b) = (Qc_of_nat a + Qc_of_nat b)%Qc.
Proof. unfold Qc_of_nat. rewrite Nat2Z.inj_add. apply Qc_of_Z_add. Qed.

Lemma Qc_of_nat_mul a b : Qc_of_nat (a * b) = (Qc_of_nat a * Qc_of_nat b)%Qc.
Proof. unfold Qc_of_nat. rewrite Nat2Z.inj_mul. apply Qc_of_Z_mul. Qed.

Lemma Qc_of_nat_S a : Qc_of_nat (S a) = (Qc_of_nat a + 1)%Qc.
Proof. replace (S a) with (a + 1) by lia. rewrite Qc_of_nat_add. reflexivity. Qed.

Lemma Qc_of_nat_inj a b : Qc_of_nat a = Qc_of_nat b -> a = b.
Proof. unfold Qc_of_nat. intros H. apply Qc_of_Z_inj in H. lia. Qed.

Lemma Qc_of_nat_nz a : a <> 0 -> Qc_of_nat a <> 0%Qc.
Proof. intros Ha H. apply Ha. apply Qc_of_nat_inj. exact H. Qed.

(** ** Finite sums: [sum n f = f 0 + ... + f (n-1)] *)
Fixpoint sum (n : nat) (f : nat -> Qc) : Qc :=
  match n with
  | O => 0%Qc
  | S k => (sum k f + f k)%Qc
  end.

Lemma sum_ext n f g : (forall i, i < n -> f i = g i) -> sum n f = sum n g.
Proof.
  induction n as [|n IH]; simpl; intros H; [reflexivity|].
  rewrite IH by (intros; apply H; lia). rewrite H by lia. reflexivity.
Qed.

Lemma sum_zero n f : (forall i, i < n -> f i = 0%Qc) -> sum n f = 0%Qc.
Proof.
  induction n as [|n IH]; simpl; intros H; [reflexivity|].
  rewrite IH by (intros; apply H; lia). rewrite H by lia. ring.
Qed.

Lemma sum_plus n f g : (sum n (fun i => f i + g i) = sum n f + sum n g)%Qc.
Proof. induction n as [|n IH]; simpl; [ring|]. rewrite IH. ring. Qed.

Lemma sum_minus n f g : (sum n (fun i => f i - g i) = sum n f - sum n g)%Qc.
Proof. induction n as [|n IH]; simpl; [ring|]. rewrite IH. ring. Qed.

Lemma sum_opp n f : (sum n (fun i => - f i) = - sum n f)%Qc.
Proof. induction n as [|n IH]; simpl; [ring|]. rewrite IH. ring. Qed.

Lemma sum_scal_l n c f : (sum n (fun i => c * f i) = c * sum n f)%Qc.
Proof. induction n as [|n IH]; simpl; [ring|]. rewrite IH. ring. Qed.

Lemma sum_scal_r n c f : (sum n (fun i => f i * c) = sum n f * c)%Qc.
Proof. induction n as [|n IH]; simpl; [ring|]. rewrite IH. ring. Qed.

Lemma sum_swap n m f :
  sum n (fun i => sum m (fun j => f i j)) = sum m (fun j => sum n (fun i => f i j)).
Proof.
  induction n as [|n IH]; simpl.
  - symmetry. apply sum_zero. reflexivity.
  - rewrite IH. rewrite <- sum_plus. reflexivity.
Qed.

Lemma sum_app n m f : (sum (n + m) f = sum n f + sum m (fun i => f (n + i)%nat))%Qc.
Proof.
  induction m as [|m IH]; simpl.
  - rewrite Nat.add_0_r. ring.
  - rewrite Nat.add_succ_r. simpl. rewrite IH. ring.
Qed.

Lemma sum_mul k n f :
  sum (k * n) f = sum k (fun a => sum n (fun i => f (a * n + i)%nat)).
Proof.
  induction k as [|k IH]; simpl; [reflexivity|].
  rewrite Nat.add_comm. rewrite sum_app. rewrite IH. reflexivity.
Qed.

Lemma sum_single n k f :
  k < n -> (forall i, i < n -> i <> k -> f i = 0%Qc) -> sum n f = f k.
Proof.
  induction n as [|n IH]; simpl; intros Hk H; [lia|].
  destruct (Nat.eq_dec k n) as [->|Hne].
  - rewrite sum_zero by (intros; apply H; lia). ring.
  - rewrite IH by (try lia; intros; apply H; lia). rewrite (H n) by lia. ring.
Qed.

Definition delta (i j : nat) : Qc := if Nat.eqb i j then 1%Qc else 0%Qc.

Lemma sum_delta_l n k f : k < n -> (sum n (fun i => delta k i * f i) = f k)%Qc.
Proof.
  intros Hk. rewrite (sum_single n k); auto.
  - unfold delta. rewrite Nat.eqb_refl. ring.
  - intros i Hi Hne. unfold delta. destruct (Nat.eqb_spec k i); [lia|]. ring.
Qed.

Lemma sum_delta_r n k f : k < n -> (sum n (fun i => f i * delta i k) = f k)%Qc.
Proof.
  intros Hk. rewrite (sum_single n k); auto.
  - unfold delta. rewrite Nat.eqb_refl. ring.
  - intros i Hi Hne. unfold delta. destruct (Nat.eqb_spec i k); [lia|]. ring.
Qed.

(** Sum over a list of indices. *)
Definition lsum (l : list nat) (f : nat -> Qc) : Qc :=
  fold_right (fun i s => (f i + s)%Qc) 0%Qc l.

Lemma lsum_app l1 l2 f : (lsum (l1 ++ l2) f = lsum l1 f + lsum l2 f)%Qc.
Proof. induction l1 as [|a l1 IH]; simpl; [ring|]. rewrite IH. ring. Qed.

Lemma lsum_perm l1 l2 f : Permutation l1 l2 -> lsum l1 f = lsum l2 f.
Proof.
  induction 1; simpl; try congruence. ring.
Qed.

Lemma lsum_seq n f : lsum (seq 0 n) f = sum n f.
Proof.
  induction n as [|n IH]; [reflexivity|].
  rewrite seq_S. rewrite lsum_app. rewrite IH. simpl. ring.
Qed.

Lemma lsum_nth l f d :
  lsum l f = sum (length l) (fun k => f (nth k l d)).
Proof.
  induction l as [|a l IH]; [reflexivity|].
  change (length (a :: l)) with (1 + length l). rewrite sum_app.
  simpl. rewrite IH. f_equal. ring.
Qed.

(** A sum reindexed by a permutation of the index range. *)
Lemma sum_reindex l n f :
  Permutation l (seq 0 n) ->
  sum n (fun k => f (nth k l 0)) = sum n f.
Proof.
  intros H. rewrite <- (lsum_seq n f). rewrite <- (lsum_perm _ _ f H).
  rewrite (lsum_nth l f 0).
  rewrite (Permutation_length H), seq_length. reflexivity.
Qed.

(** ** Lists *)
Lemma nth_map_seq {A} (f : nat -> A) n i d : i < n -> nth i (map f (seq 0 n)) d = f i.
Proof.
  intros H. rewrite (nth_indep _ d (f 0)) by (rewrite map_length, seq_length; lia).
  rewrite map_nth. rewrite seq_nth by lia. reflexivity.
Qed.

Lemma nth_error_map_seq {A} (f : nat -> A) n i :
  i < n -> nth_error (map f (seq 0 n)) i = Some (f i).
Proof.
  intros H. rewrite (nth_error_nth' _ (f 0)) by (rewrite map_length, seq_length; lia).
  rewrite nth_map_seq by lia. reflexivity.
Qed.

Lemma list_ext {A} (d : A) (l1 l2 : list A) :
  length l1 = length l2 ->
  (forall i, i < length l1 -> nth i l1 d = nth i l2 d) -> l1 = l2.
Proof. intros. apply (nth_ext l1 l2 d d); auto. Qed.

Lemma map_seq_nth {A} (d : A) (l : list A) :
  map (fun i => nth i l d) (seq 0 (length l)) = l.
Proof.
  apply (list_ext d).
  - rewrite map_length, seq_length. reflexivity.
  - intros i Hi. rewrite map_length, seq_length in Hi.
    rewrite nth_map_seq by lia. reflexivity.
Qed.

(** Replace the [i]-th element. *)
Fixpoint upd {A} (l : list A) (i : nat) (a : A) : list A :=
  match l, i with
  | [], _ => []
  | _ :: l', O => a :: l'
  | b :: l', S i' => b :: upd l' i' a
  end.

Lemma upd_length {A} (l : list A) i a : length (upd l i a) = length l.
Proof. revert i; induction l; destruct i; simpl; auto. Qed.

Lemma nth_upd {A} (l : list A) i j a d :
  j < length l -> nth j (upd l i a) d = if Nat.eqb i j then a else nth j l d.
Proof.
  revert i j; induction l as [|b l IH]; intros i j Hj; simpl in Hj; [lia|].
  destruct i, j; simpl; auto. apply IH. lia.
Qed.

Lemma nth_error_upd_eq {A} (l : list A) i a :
  i < length l -> nth_error (upd l i a) i = Some a.
Proof.
  revert i; induction l as [|b l IH]; intros i Hi; simpl in Hi; [lia|].
  destruct i; simpl; auto. apply IH. lia.
Qed.

Lemma nth_error_upd_neq {A} (l : list A) i j a :
  i <> j -> nth_error (upd l i a) j = nth_error l j.
Proof.
  revert i j; induction l as [|b l IH]; intros i j Hij; simpl.
  - destruct i, j; reflexivity.
  - destruct i, j; simpl; auto; lia.
Qed.

Lemma upd_ge {A} (l : list A) i a : length l <= i -> upd l i a = l.
Proof.
  revert i; induction l as [|b l IH]; intros i Hi; simpl in *; [destruct i; auto|].
  destruct i; [lia|]. f_equal. apply IH. lia.
Qed.

(** Entries of a concatenation of equally long rows. *)
Lemma nth_concat_rows {A} (d : A) (c : nat) (rows : list (list A)) i j :
  (forall r, In r rows -> length r = c) -> j < c -> i < length rows ->
  nth (i * c + j) (concat rows) d = nth j (nth i rows []) d.
Proof.
  revert i; induction rows as [|r rows IH]; intros i Hc Hj Hi; simpl in Hi; [lia|].
  simpl. assert (Hr : length r = c) by (apply Hc; simpl; auto).
  destruct i as [|i].
  - simpl. apply app_nth1. lia.
  - simpl. rewrite app_nth2 by (rewrite Hr; lia).
    rewrite Hr. replace (c + i * c + j - c) with (i * c + j) by lia.
    apply IH; try lia. intros; apply Hc; simpl; auto.
Qed.

Lemma concat_rows_length {A} (c : nat) (rows : list (list A)) :
  (forall r, In r rows -> length r = c) -> length (concat rows) = length rows * c.
Proof.
  induction rows as [|r rows IH]; simpl; intros H; [reflexivity|].
  rewrite app_length, IH by auto. rewrite (H r) by auto. reflexivity.
Qed.

Lemma divmod_lt r c k : k < r * c -> k / c < r /\ k mod c < c /\ k = (k / c) * c + k mod c.
Proof.
  intros H. assert (c <> 0) by (intro; subst; lia).
  repeat split.
  - apply Nat.div_lt_upper_bound; lia.
  - apply Nat.mod_upper_bound; auto.
  - rewrite Nat.mul_comm. apply Nat.div_mod; auto.
Qed.

Lemma flat_lt i j r c : i < r -> j < c -> i * c + j < r * c.
Proof. intros. nia. Qed.

Lemma flat_inj i j i' j' c : j < c -> j' < c -> i * c + j = i' * c + j' -> i = i' /\ j = j'.
Proof. intros. assert (i = i') by nia. subst. lia. Qed.
