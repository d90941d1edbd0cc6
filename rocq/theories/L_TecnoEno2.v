(** The diffusion operator with ENO reconstruction: all variables, all loops. *)
From Coq Require Import ZArith Reals List Bool Lia Lra.
From Verif Require Import M_Base M_Vec M_Boundary M_Flux M_Scalar M_Recon M_Eno M_Diffusion M_TecnoEno
  S_Boundary S_Flux S_Sum S_Entropy S_Diffusion S_TecnoEno
  L_Base L_Loops L_Boundary L_Flux L_System L_Sum L_Conserve L_Entropy L_Recon L_Diffusion L_TecnoEno.
Import ListNotations.
Open Scope Z_scope.

Lemma set_nth_length i x l : length (set_nth i x l) = length l.
Proof. revert i. induction l as [|y l IH]; intros [|i]; cbn; auto. Qed.
Lemma nth_set_nth i j x l : (i < length l)%nat ->
  nth j (set_nth i x l) 0%R = if (j =? i)%nat then x else nth j l 0%R.
Proof.
  revert i j. induction l as [|y l IH]; intros i j H; [cbn in H; lia|].
  destruct i as [|i], j as [|j]; cbn; auto. apply IH. cbn in H. lia.
Qed.

Section Vars.
Context {V : cvars} (bs : basis V).

Lemma vget_area i (v : vol V) c : vget (area bs i v) c = nth i (comps bs (vget v c)) 0%R.
Proof. destruct c as [[x y] z]. reflexivity. Qed.
Lemma vget_put i a (v : vol V) c j : same_dims v a -> (i < bdim bs)%nat ->
  nth j (comps bs (vget (put_area bs i a v) c)) 0%R =
  if (j =? i)%nat then vget a c else nth j (comps bs (vget v c)) 0%R.
Proof.
  intros (A1 & A2 & _) Hi. destruct c as [[x y] z]. unfold vget, put_area. cbn [vnx vny vdat].
  rewrite comps_of by (now rewrite set_nth_length, comps_length).
  rewrite nth_set_nth by (now rewrite comps_length). now rewrite A1, A2.
Qed.

Variables (k : nat) (d : Z) (el er : vol V).
Hypothesis Hd : dir d.
Hypothesis Hk : (2 <= k <= 4)%nat.
Hypothesis Hext : forall j, dir j -> 1 <= total el j.
Hypothesis Hbig : 2 * Z.of_nat k < total el d.
Hypothesis Der : same_dims el er.

Definition gcell (c : cell) : Prop := inr el c /\ Z.of_nat k - 1 <= coord d c < total el d - Z.of_nat k /\
  Z.of_nat k - 1 <= coord 0 c < total el 0 - Z.of_nat k.

(** Values of component i in a cell, from the contents of el and er. *)
Definition jmp (i : nat) (c : cell) : R :=
  (nth i (comps bs (vget el (move d 1 c))) 0 - nth i (comps bs (vget er c)) 0)%R.
Definition lwalk (i : nat) (c : cell) : Z -> R := walk (nth i (comps bs (vget el c)) 0%R) (fun o => jmp i (move 0 o c)).
Definition lshift (i : nat) (c : cell) : nat :=
  eno_shift (k - 1) (walk (nth i (comps bs (vget el c)) 0%R) (fun o => jmp i (move d o c))).
Definition lval (i : nat) (c : cell) : R := stencil_left (V := scalar_cvars) (lwalk i c) k (lshift i c).
Definition rval (i : nat) (c : cell) : R :=
  (stencil_right (V := scalar_cvars) (lwalk i c) k (lshift i c)
   + (nth i (comps bs (vget er c)) 0 - nth i (comps bs (vget el c)) 0))%R.

Lemma one_var i scratch (left right : vol V) : (i < bdim bs)%nat ->
  length scratch = (k - 1)%nat -> Forall (same_dims el) scratch -> same_dims el left -> same_dims el right ->
  exists dd l' r', tecno_eno_var k d (area bs i el) (area bs i er) scratch (area bs i left) (area bs i right) = Ok (dd, (l', r')) /\
    length dd = (k - 1)%nat /\ Forall (same_dims el) dd /\ same_dims el l' /\ same_dims el r' /\
    forall c, gcell c -> vget l' c = lval i c /\ vget r' c = rval i c.
Proof.
  intros Hi HL HF Dl Dr.
  destruct (var_good k d (area bs i el) (area bs i er)) with (scratch := scratch) (left := area bs i left) (right := area bs i right)
    as (dd & l' & r' & E & L & F & D1 & D2 & W); auto.
  exists dd, l', r'. split; [exact E|]. split; [exact L|]. split; [exact F|]. split; [exact D1|]. split; [exact D2|].
  intros c Hc. specialize (W c Hc). cbv zeta in W. destruct W as [W1 W2]. rewrite W1, W2.
  assert (EJ : forall c, J d (area bs i el) (area bs i er) c = jmp i c).
  { intros c'. unfold J, jmp. now rewrite !vget_area. }
  rewrite !vget_area. unfold rval, lval, lshift, lwalk.
  assert (EW : forall dd x o, walk x (fun o => J d (area bs i el) (area bs i er) (move dd o c)) o = walk x (fun o => jmp i (move dd o c)) o).
  { intros dd' x o. unfold walk. f_equal; [f_equal|]; apply sumz_ext; intros; apply EJ. }
  rewrite (eno_shift_ext (k - 1) _ (walk (nth i (comps bs (vget el c)) 0%R) (fun o => jmp i (move d o c)))) by (intros; apply EW).
  assert (Hs : forall v, (eno_shift (k - 1) v < k)%nat) by (intros v; pose proof (eno_shift_le (k - 1) v); lia).
  match goal with |- context [stencil_left ?A k ?s] =>
    destruct (stencil_ext (V := scalar_cvars) A (walk (nth i (comps bs (vget el c)) 0%R) (fun o => jmp i (move 0 o c))) k s) as [-> ->];
      [lia|apply Hs|intros; apply EW|] end.
  split; reflexivity.
Qed.

Lemma all_vars l : forall scratch (left right : vol V), NoDup l -> (forall i, In i l -> (i < bdim bs)%nat) ->
  length scratch = (k - 1)%nat -> Forall (same_dims el) scratch -> same_dims el left -> same_dims el right ->
  exists dd l' r', fold_res (fun i s =>
      r <- tecno_eno_var k d (area bs i el) (area bs i er) (fst s) (area bs i (fst (snd s))) (area bs i (snd (snd s)));;
      Ok (fst r, (put_area bs i (fst (snd r)) (fst (snd s)), put_area bs i (snd (snd r)) (snd (snd s)))))
      l (scratch, (left, right)) = Ok (dd, (l', r')) /\
    length dd = (k - 1)%nat /\ Forall (same_dims el) dd /\ same_dims el l' /\ same_dims el r' /\
    forall c, gcell c ->
      (forall i, In i l -> nth i (comps bs (vget l' c)) 0%R = lval i c /\ nth i (comps bs (vget r' c)) 0%R = rval i c) /\
      (forall i, ~ In i l -> nth i (comps bs (vget l' c)) 0%R = nth i (comps bs (vget left c)) 0%R /\
                            nth i (comps bs (vget r' c)) 0%R = nth i (comps bs (vget right c)) 0%R).
Proof.
  induction l as [|i l IH]; intros scratch left right HN Hi HL HF Dl Dr.
  - exists scratch, left, right. do 5 (split; [cbn; auto|]). intros c _. split; [intros i []|auto].
  - inversion HN as [|? ? N1 N2]; subst. cbn [fold_res fst snd].
    destruct (one_var i scratch left right) as (dd & l1 & r1 & E & L & F & D1 & D2 & W); auto; [apply Hi; now left|].
    rewrite E. cbn [bind fst snd].
    assert (P1 : same_dims left l1) by (apply (same_dims_trans left el l1); [now apply same_dims_sym|exact D1]).
    assert (P2 : same_dims right r1) by (apply (same_dims_trans right el r1); [now apply same_dims_sym|exact D2]).
    destruct (IH dd (put_area bs i l1 left) (put_area bs i r1 right)) as (dd' & l' & r' & E' & L' & F' & D1' & D2' & W'); auto.
    { intros j Hj. apply Hi. now right. }
    exists dd', l', r'. split; [exact E'|]. split; [exact L'|]. split; [exact F'|]. split; [exact D1'|]. split; [exact D2'|].
    intros c Hc. destruct (W' c Hc) as [A B]. destruct (W c Hc) as [X1 X2].
    assert (Hii : (i < bdim bs)%nat) by (apply Hi; now left).
    split.
    + intros j [<-|Hj]; [|now apply A]. destruct (B i N1) as [-> ->].
      rewrite !vget_put by assumption. rewrite Nat.eqb_refl. now split.
    + intros j Hj. destruct (B j) as [-> ->]; [intros X; apply Hj; now right|].
      rewrite !vget_put by assumption. destruct (Nat.eqb_spec j i) as [->|]; [exfalso; apply Hj; now left|]. now split.
Qed.

Lemma tecno_eno_spec scratch (left right : vol V) : length scratch = (k - 1)%nat ->
  (Forall (same_dims el) scratch \/ Forall (fun w => size3 el <> size3 w) scratch) ->
  same_dims el left -> same_dims el right ->
  exists dd l' r', tecno_eno bs k d el er scratch left right = Ok (dd, (l', r')) /\
    length dd = (k - 1)%nat /\ Forall (same_dims el) dd /\ same_dims el l' /\ same_dims el r' /\
    forall c, gcell c -> forall i, (i < bdim bs)%nat ->
      nth i (comps bs (vget l' c)) 0%R = lval i c /\ nth i (comps bs (vget r' c)) 0%R = rval i c.
Proof.
  intros HL Hsc Dl Dr. unfold tecno_eno.
  replace ((d <? 0) || (2 <? d)) with false by (dcase Hd; reflexivity).
  destruct scratch as [|w0 ws]; [cbn in HL; lia|]. set (scratch := w0 :: ws) in *.
  set (scratch1 := if size3 el =? size3 w0 then scratch else _).
  assert (Hs1 : length scratch1 = (k - 1)%nat /\ Forall (same_dims el) scratch1).
  { unfold scratch1. destruct Hsc as [H|H].
    - inversion H as [|? ? (H1 & H2 & H3) _]; subst. unfold size3. rewrite H1, H2, H3, Z.eqb_refl. auto.
    - inversion H as [|? ? H1 _]; subst. destruct (Z.eqb_spec (size3 el) (size3 w0)); [congruence|].
      split; [now rewrite map_length|]. apply Forall_forall. intros w Hin. apply in_map_iff in Hin.
      destruct Hin as (? & <- & _). repeat split. }
  destruct Hs1 as [L1 F1].
  destruct (all_vars (seq 0 (bdim bs)) scratch1 left right) as (dd & l' & r' & E & L & F & D1 & D2 & W); auto.
  - apply seq_NoDup.
  - intros i Hi. apply in_seq in Hi. lia.
  - exists dd, l', r'. split; [exact E|]. split; [exact L|]. split; [exact F|]. split; [exact D1|]. split; [exact D2|].
    intros c Hc i Hi. apply (W c Hc). apply in_seq. lia.
Qed.
End Vars.

(** Reconstructed values in a cell from the scaled variables of the two faces:
    the values are taken along x, the shift along the direction. *)
Section Values.
Variables (k : nat) (d : Z) (SL SR : cell -> R).
Definition vjump (c : cell) : R := (SL (move d 1 c) - SR c)%R.
Definition vwalk (dd : Z) (c : cell) : Z -> R := walk (SL c) (fun o => vjump (move dd o c)).
Definition vleft (c : cell) : R := stencil_left (V := scalar_cvars) (vwalk 0 c) k (eno_shift (k - 1) (vwalk d c)).
Definition vright (c : cell) : R :=
  (stencil_right (V := scalar_cvars) (vwalk 0 c) k (eno_shift (k - 1) (vwalk d c)) + (SR c - SL c))%R.
End Values.

Lemma values_ext k d SL SR SL' SR' c : (2 <= k <= 4)%nat ->
  SL c = SL' c -> SR c = SR' c ->
  (forall o, - Z.of_nat k < o < Z.of_nat k - 1 -> vjump d SL SR (move 0 o c) = vjump d SL' SR' (move 0 o c)) ->
  (forall o, - Z.of_nat k < o < Z.of_nat k - 1 -> vjump d SL SR (move d o c) = vjump d SL' SR' (move d o c)) ->
  vleft k d SL SR c = vleft k d SL' SR' c /\ vright k d SL SR c = vright k d SL' SR' c.
Proof.
  intros Hk HL HR H0 H1. unfold vleft, vright.
  assert (E0 : forall o, - Z.of_nat k < o < Z.of_nat k -> vwalk d SL SR 0 c o = vwalk d SL' SR' 0 c o).
  { intros o Ho. unfold vwalk. rewrite HL. apply (walk_ext _ _ _ o (1 - Z.of_nat k) (Z.of_nat k - 1)); try lia. intros j Hj. apply H0. lia. }
  assert (E1 : forall o, - Z.of_nat k < o < Z.of_nat k -> vwalk d SL SR d c o = vwalk d SL' SR' d c o).
  { intros o Ho. unfold vwalk. rewrite HL. apply (walk_ext _ _ _ o (1 - Z.of_nat k) (Z.of_nat k - 1)); try lia. intros j Hj. apply H1. lia. }
  rewrite (eno_shift_ext (k - 1) (vwalk d SL SR d c) (vwalk d SL' SR' d c)) by (intros; apply E1; lia).
  pose proof (eno_shift_le (k - 1) (vwalk d SL' SR' d c)).
  destruct (stencil_ext (V := scalar_cvars) (vwalk d SL SR 0 c) (vwalk d SL' SR' 0 c) k (eno_shift (k - 1) (vwalk d SL' SR' d c)))
    as [-> ->]; [lia|lia|exact E0|]. now rewrite HL, HR.
Qed.

Lemma fold_right_map_ {A B C} (f : B -> C -> C) (h : A -> B) l a :
  fold_right f a (map h l) = fold_right (fun x acc => f (h x) acc) a l.
Proof. induction l as [|x l IH]; cbn; [reflexivity|]. now rewrite IH. Qed.

Section Operator.
Context {V : cvars} (bs : basis V) (eq : diff_eq (V := V)) (m : dmatrix).
Hypothesis Hsq : square bs eq.

Lemma mat_t_nth cols v i : length cols = bdim bs -> (i < bdim bs)%nat ->
  nth i (comps bs (mat_t bs cols v)) 0%R = inner bs (nth i cols vzero) v.
Proof.
  intros Hl Hi. unfold mat_t. rewrite comps_of by now rewrite map_length.
  rewrite (nth_indep _ 0%R (dot bs vzero v)) by (rewrite map_length; lia).
  exact (map_nth (fun c => dot bs c v) cols vzero i).
Qed.

Lemma mat_cols cols w x : length cols = bdim bs -> length w = bdim bs ->
  mat bs cols (diag bs w x) = col_sum bs cols w (fun i => nth i (comps bs x) 0%R).
Proof.
  intros Hc Hw. unfold mat, diag, col_sum.
  rewrite comps_of by (rewrite map_length, combine_length, comps_length; lia).
  pose proof (comps_length _ bs x) as Hx. revert Hx. generalize (comps bs x). intros l Hx.
  rewrite <- Hc in *. clear Hc.
  revert w l Hw Hx. induction cols as [|c cols IH]; intros [|a w] [|b l] Hw Hx; try discriminate; [reflexivity|].
  cbn [length seq combine map fold_right fst snd nth]. f_equal.
  rewrite <- seq_shift, fold_right_map_.
  apply IH; [now injection Hw|now injection Hx].
Qed.

Lemma col_sum_ext cols w r r' : (forall i, (i < bdim bs)%nat -> r i = r' i) -> col_sum bs cols w r = col_sum bs cols w r'.
Proof.
  intros H. unfold col_sum.
  assert (G : forall l, (forall i, In i l -> (i < bdim bs)%nat) ->
    fold_right (fun i acc => vadd (vscal (nth i w 0 * r i)%R (nth i cols vzero)) acc) vzero l =
    fold_right (fun i acc => vadd (vscal (nth i w 0 * r' i)%R (nth i cols vzero)) acc) vzero l).
  { induction l as [|i l IH]; intros Hl; cbn [fold_right]; [reflexivity|].
    rewrite IH by (intros; apply Hl; now right). rewrite H by (apply Hl; now left). reflexivity. }
  apply G. intros i Hi. apply in_seq in Hi. lia.
Qed.

Lemma nth_comps_sub a b i : (i < bdim bs)%nat ->
  nth i (comps bs (vadd a (vscal (-1) b))) 0%R = (nth i (comps bs a) 0 - nth i (comps bs b) 0)%R.
Proof.
  intros Hi. rewrite comps_add, comps_scal.
  pose proof (comps_length _ bs a) as Ha. pose proof (comps_length _ bs b) as Hb.
  revert Ha Hb. generalize (comps bs a) (comps bs b). intros la lb Ha Hb. rewrite <- Ha in Hb, Hi. clear Ha.
  revert lb i Hb Hi. induction la as [|x la IH]; intros [|y lb] i Hb Hi; try discriminate; [cbn in Hi; lia|].
  destruct i as [|i]; cbn [map combine nth fst snd]; [ring|]. apply IH; [now injection Hb|cbn in Hi; lia].
Qed.

(** Entropy variables of a cell in the coordinates of its left and right face. *)
Definition scl (d : Z) (u : cell -> V) (i : nat) (c : cell) : R :=
  inner bs (nth i (dcols eq d (average (u c) (u (move d (-1) c)))) vzero) (dentropy eq (u c)).
Definition scr (d : Z) (u : cell -> V) (i : nat) (c : cell) : R :=
  inner bs (nth i (dcols eq d (average (u (move d 1 c)) (u c))) vzero) (dentropy eq (u c)).
Definition fjump (k : nat) (d : Z) (u : cell -> V) (c : cell) (i : nat) : R :=
  (vleft k d (scl d u i) (scr d u i) (move d 1 c) - vright k d (scl d u i) (scr d u i) c)%R.
Definition eface (k : nat) (d : Z) (u : cell -> V) (c : cell) : V :=
  vscal (1 / 2) (col_sum bs (dcols eq d (average (u (move d 1 c)) (u c)))
     (weights m (deigs eq d (average (u (move d 1 c)) (u c)))) (fjump k d u c)).

Definition deepk (k : nat) (u : vol V) (d : Z) (c : cell) : Prop := inr u c /\
  Z.of_nat k <= coord d c < total u d - Z.of_nat k - 1 /\ Z.of_nat k <= coord 0 c < total u 0 - Z.of_nat k - 1.

Definition scratch_ok (k : nat) (u : vol V) (scratch : list (vol R)) : Prop :=
  length scratch = (k - 1)%nat /\
  (Forall (same_dims u) scratch \/ Forall (fun w => size3 u <> size3 w) scratch).

Lemma diffuse_eno_dir_spec k d (u : vol V) s scratch out : dir d -> (2 <= k <= 4)%nat ->
  (forall j, dir j -> 1 <= total u j) -> 2 * Z.of_nat k < total u d ->
  same_dims u (d_el s) -> same_dims u (d_er s) -> same_dims u (d_left s) -> same_dims u (d_right s) -> same_dims u out ->
  scratch_ok k u scratch ->
  exists s' scratch' out', diffuse_eno_dir bs eq m k d u (s, scratch) out = Ok ((s', scratch'), out') /\
   same_dims u (d_el s') /\ same_dims u (d_er s') /\ same_dims u (d_left s') /\ same_dims u (d_right s') /\ same_dims u out' /\
   scratch_ok k u scratch' /\
   forall c, deepk k u d c -> vget out' c = vadd (vget out c)
     (vadd (eface k d (vget u) c) (vscal (-1) (eface k d (vget u) (move d (-1) c)))).
Proof.
  intros Hd Hk Hext Hbig D1 D2 D3 D4 D5 [HL HS]. unfold diffuse_eno_dir. cbn [fst snd].
  destruct (project_spec bs eq d u (d_el s) (d_er s) Hd D1 D2) as (el & er & E1 & S1 & S2 & W1 & W2).
  rewrite E1. cbn [bind fst snd].
  assert (Ht : forall j, total el j = total u j) by (intros j; destruct S1 as (A & B & C); unfold total; now rewrite A, B, C).
  destruct (tecno_eno_spec bs k d el er Hd Hk) with (scratch := scratch) (left := d_left s) (right := d_right s)
    as (dd & l & r & E2 & L2 & F2 & S3 & S4 & W3).
  { intros j Hj. rewrite Ht. now apply Hext. }
  { now rewrite Ht. }
  { exact (same_dims_trans _ _ _ (same_dims_sym _ _ S1) S2). }
  { exact HL. }
  { destruct HS as [HS|HS]; [left|right].
    - eapply Forall_impl; [|exact HS]. intros w Hw. exact (same_dims_trans _ _ _ (same_dims_sym _ _ S1) Hw).
    - eapply Forall_impl; [|exact HS]. intros w Hw. cbv beta in *. destruct S1 as (A & B & C). unfold size3 in *. rewrite <- A, <- B, <- C. exact Hw. }
  { exact (same_dims_trans _ _ _ (same_dims_sym _ _ S1) D3). }
  { exact (same_dims_trans _ _ _ (same_dims_sym _ _ S1) D4). }
  rewrite E2. cbn [bind fst snd].
  assert (S3' := same_dims_trans _ _ _ S1 S3). assert (S4' := same_dims_trans _ _ _ S1 S4).
  destruct (add_diffusion_spec bs eq m d u l r out Hd S3' S4' D5) as (o & E3 & S5 & W5).
  rewrite E3. cbn [bind]. exists (mkdstate el er l r), dd, o. cbn [d_el d_er d_left d_right].
  do 6 (split; [assumption || reflexivity|]). split.
  { split; [exact L2|left]. eapply Forall_impl; [|exact F2]. intros w Hw. exact (same_dims_trans _ _ _ S1 Hw). }
  intros c (Hin & Hcd & Hc0).
  assert (Dir0 : dir 0) by (unfold dir; lia).
  rewrite inr_iff in Hin.
  assert (Hrg : forall t, - Z.of_nat k < t <= Z.of_nat k -> rng u d (move d t c) = true).
  { intros t Ht'. apply rng_iff; auto. intros j Hj. rewrite coord_move by auto. specialize (Hin j Hj).
    destruct (Z.eqb_spec j d) as [->|]; lia. }
  assert (Hir : forall t, - Z.of_nat k <= t <= Z.of_nat k -> inr u (move d t c)).
  { intros t Ht'. apply inr_iff. intros j Hj. rewrite coord_move by auto. specialize (Hin j Hj).
    destruct (Z.eqb_spec j d) as [->|]; lia. }
  rewrite W5 by (rewrite <- (move_0 d c); apply Hir; lia).
  rewrite <- (move_0 d c) at 1. rewrite Hrg by lia.
  (* scaled variables where they were written *)
  assert (EL : forall c' i, rng u d c' = true -> (i < bdim bs)%nat -> nth i (comps bs (vget el c')) 0%R = scl d (vget u) i c').
  { intros c' i Hr Hi. rewrite W1 by (now apply (rng_in0 u d)). rewrite Hr. apply mat_t_nth; auto. apply Hsq. }
  assert (ER : forall c' i, inr u c' -> rng u d (move d 1 c') = true -> (i < bdim bs)%nat ->
    nth i (comps bs (vget er c')) 0%R = scr d (vget u) i c').
  { intros c' i Hi1 Hr Hi. rewrite W2 by exact Hi1. rewrite Hr. apply mat_t_nth; auto. apply Hsq. }
  (* the reconstructed values next to the two faces *)
  assert (JMP : forall c' i, inr u c' -> rng u d (move d 1 c') = true -> (i < bdim bs)%nat ->
    vjump d (fun c => nth i (comps bs (vget el c)) 0%R) (fun c => nth i (comps bs (vget er c)) 0%R) c' =
    vjump d (scl d (vget u) i) (scr d (vget u) i) c').
  { intros c' i H1 H2 Hi. unfold vjump. now rewrite EL, ER. }
  assert (NEAR : forall dd o t, dd = 0 \/ dd = d -> - Z.of_nat k < o < Z.of_nat k - 1 -> -1 <= t <= 1 ->
    inr u (move dd o (move d t c)) /\ rng u d (move d 1 (move dd o (move d t c))) = true).
  { intros dd' o' t Hdd Ho Ht'. assert (dir dd') by (destruct Hdd; subst; auto). split.
    - apply inr_iff. intros j Hj. rewrite !coord_move by auto. specialize (Hin j Hj).
      destruct (Z.eqb_spec j d), (Z.eqb_spec j dd'); subst; try lia; destruct Hdd; subst; lia.
    - apply rng_iff; auto. intros j Hj. rewrite !coord_move by auto. specialize (Hin j Hj).
      destruct (Z.eqb_spec j d), (Z.eqb_spec j dd'); subst; try lia; destruct Hdd; subst; lia. }
  assert (VAL : forall t i, -1 <= t <= 1 -> (i < bdim bs)%nat ->
    nth i (comps bs (vget l (move d t c))) 0%R = vleft k d (scl d (vget u) i) (scr d (vget u) i) (move d t c) /\
    nth i (comps bs (vget r (move d t c))) 0%R = vright k d (scl d (vget u) i) (scr d (vget u) i) (move d t c)).
  { intros t i Ht' Hi.
    destruct (W3 (move d t c)) with (i := i) as [A B]; auto.
    { unfold gcell. split; [eapply inr_same; [exact S1|apply Hir; lia]|].
      rewrite !Ht, !coord_move by auto. rewrite Z.eqb_refl. destruct (Z.eqb_spec 0 d); lia. }
    rewrite A, B.
    apply (values_ext k d (fun c => nth i (comps bs (vget el c)) 0%R) (fun c => nth i (comps bs (vget er c)) 0%R)); auto.
    - apply EL; auto. apply Hrg. lia.
    - apply ER; auto; [apply Hir; lia|]. rewrite move_move. apply Hrg. lia.
    - intros o' Ho. destruct (NEAR 0 o' t) as [X1 X2]; auto.
    - intros o' Ho. destruct (NEAR d o' t) as [X1 X2]; auto. }
  assert (FV : forall t, -1 <= t <= 0 -> face_value bs eq m d (vget u) (vget l) (vget r) (move d t c) = eface k d (vget u) (move d t c)).
  { intros t Ht'. unfold face_value, eface. f_equal. rewrite mat_cols; [|apply Hsq|rewrite weights_length; apply Hsq].
    apply col_sum_ext. intros i Hi. rewrite nth_comps_sub by exact Hi. unfold fjump.
    rewrite move_move. rewrite (proj1 (VAL (t + 1) i ltac:(lia) Hi)), (proj2 (VAL t i ltac:(lia) Hi)). reflexivity. }
  rewrite (FV (-1)) by lia. pose proof (FV 0 ltac:(lia)) as F0. rewrite move_0 in F0. now rewrite F0.
Qed.

Variables (dims g nx ny nz : Z) (k : nat).
Hypothesis Hdims : 1 <= dims <= 3.
Hypothesis Hk : (2 <= k <= 4)%nat.
Hypothesis Hg : Z.of_nat k + 1 <= g.
Hypothesis (Hx : 0 < nx) (Hy : 0 < ny) (Hz : 0 < nz).

Lemma interior_deepk (u : vol V) d c : ext dims g nx ny nz u -> 0 <= d < dims -> interior dims g nx ny nz c -> deepk k u d c.
Proof.
  intros Hu Hd Hc. assert (Dd : dir d) by (unfold dir; lia). assert (D0 : dir 0) by (unfold dir; lia).
  assert (G : forall j, dir j -> (j < dims -> Z.of_nat k <= coord j c < total u j - Z.of_nat k - 1) /\ 0 <= coord j c < total u j).
  { intros j Hj. apply interior_iff with (k := j) in Hc; [|lia|exact Hj].
    rewrite (total_extents u dims g nx ny nz j) by (auto; lia). unfold ilo, ihi in Hc.
    destruct (Z.ltb_spec j dims); lia. }
  split; [apply inr_iff; intros j Hj; apply G; auto|]. split; apply G; auto; lia.
Qed.

Theorem apply_eno_spec (u out : vol V) s scratch :
  ext dims g nx ny nz u -> ext_dstate dims g nx ny nz s -> ext dims g nx ny nz out -> scratch_ok k u scratch ->
  exists s' scratch' out', apply_eno_diffusion bs eq m k dims u (s, scratch) out = Ok ((s', scratch'), out') /\
    ext_dstate dims g nx ny nz s' /\ scratch_ok k u scratch' /\ ext dims g nx ny nz out' /\
    forall c, interior dims g nx ny nz c ->
      vget out' c = vadd (vget out c) (face_term dims (fun d => eface k d (vget u)) c).
Proof.
  intros Hu (E1 & E2 & E3 & E4) Ho Hs. unfold apply_eno_diffusion, face_term.
  assert (Hl : forall d, In d (zrange 0 dims) -> 0 <= d < dims) by (intros d H; now apply zrange_In in H).
  apply (ext_same dims g nx ny nz u _ Hu) in E1. apply (ext_same dims g nx ny nz u _ Hu) in E2.
  apply (ext_same dims g nx ny nz u _ Hu) in E3. apply (ext_same dims g nx ny nz u _ Hu) in E4.
  apply (ext_same dims g nx ny nz u _ Hu) in Ho.
  assert (Hn : forall j, dir j -> 1 <= nvec nx ny nz j) by (intros j Hj; unfold nvec; dcase Hj; simpl; lia).
  revert s scratch out Ho E1 E2 E3 E4 Hs Hl.
  induction (zrange 0 dims) as [|d l IH]; intros s scratch out Ho E1 E2 E3 E4 Hs Hl; cbn [fold_res fold_left].
  - exists s, scratch, out. split; [reflexivity|].
    split; [repeat split; apply (same_ext dims g nx ny nz u); auto|]. split; [exact Hs|].
    split; [now apply (same_ext dims g nx ny nz u)|]. intros c _. now rewrite vadd_zero_r.
  - assert (Hd : 0 <= d < dims) by (apply Hl; now left).
    assert (Dd : dir d) by (unfold dir; lia).
    destruct (diffuse_eno_dir_spec k d u s scratch out Dd Hk) as (s1 & sc1 & o1 & Ed & F1 & F2 & F3 & F4 & F5 & F6 & W); auto.
    { intros j Hj. rewrite (total_extents u dims g nx ny nz j) by (auto; lia). specialize (Hn j Hj).
      destruct (j <? dims); lia. }
    { rewrite (total_extents u dims g nx ny nz d) by (auto; lia). specialize (Hn d Dd).
      destruct (Z.ltb_spec d dims); lia. }
    cbn [fst snd]. rewrite Ed. cbn [bind].
    destruct (IH s1 sc1 o1 F5 F1 F2 F3 F4 F6) as (s2 & sc2 & o2 & E' & X1 & X2 & X3 & W2); [intros; apply Hl; now right|].
    exists s2, sc2, o2. split; [exact E'|]. split; [exact X1|]. split; [exact X2|]. split; [exact X3|]. intros c Hc.
    rewrite W2 by exact Hc. rewrite W by (now apply interior_deepk).
    rewrite vadd_assoc. f_equal. rewrite (fold_vadd _ l (vadd vzero _)). f_equal.
    apply comp_ext. intros i. rewrite !comp_add, comp_zero. ring.
Qed.
End Operator.

(** Sums of face terms. *)
Section Faces.
Context {V : cvars} (bs : basis V).
Variables (dims g nx ny nz : Z).
Hypothesis Hdims : 1 <= dims <= 3.
Hypothesis (Hg : 0 < g) (Gx : g <= nx) (Gy : 1 < dims -> g <= ny) (Gz : 2 < dims -> g <= nz).
Hypothesis (Hx : 0 < nx) (Hy : 0 < ny) (Hz : 0 < nz).
Notation n := (nvec nx ny nz).
Variable F : Z -> cell -> V.
Hypothesis HF : forall d c, 0 <= d < dims -> low_cell dims g nx ny nz d c -> F d (move d (n d) c) = F d c.

Lemma comp_face_term i c : comp i (face_term dims F c) =
  fold_right Rplus 0%R (map (fun d => (-1 * (comp i (F d (move d (-1) c)) - comp i (F d c)))%R) (zrange 0 dims)).
Proof.
  unfold face_term.
  assert (G : forall l a, comp i (fold_left (fun a d => vadd a (vadd (F d c) (vscal (-1) (F d (move d (-1) c))))) l a) =
    (comp i a + fold_right Rplus 0 (map (fun d => -1 * (comp i (F d (move d (-1) c)) - comp i (F d c))) l))%R).
  { induction l as [|d l IH]; intros a; cbn [fold_left map fold_right]; [ring|]. rewrite IH, !comp_add, comp_scal. ring. }
  rewrite G, comp_zero. ring.
Qed.

Lemma face_term_sum i : isum dims g n (fun c => comp i (face_term dims F c)) = 0%R.
Proof.
  rewrite (isum_ext dims g n _ _ (fun c _ => comp_face_term i c)).
  assert (Hl : forall d, In d (zrange 0 dims) -> 0 <= d < dims) by (intros d H; now apply zrange_In in H).
  unfold isum. induction (zrange 0 dims) as [|d l IH]; cbn [map fold_right]; [apply sum3_zero|].
  rewrite sum3_plus, IH by (intros; apply Hl; now right). rewrite sum3_scal.
  assert (Hd : 0 <= d < dims) by (apply Hl; now left).
  pose proof (telescope_periodic dims g nx ny nz ltac:(lia) ltac:(lia) Gx Gy Gz d (fun c => comp i (F d c)) Hd) as T.
  unfold isum in T. rewrite T; [ring|]. intros c Hc. now rewrite HF.
Qed.

Variable ev : cell -> V.
Hypothesis HE : forall d c, 0 <= d < dims -> low_cell dims g nx ny nz d c -> ev (move d 1 (move d (n d) c)) = ev (move d 1 c).

(** Summation by parts. *)
Lemma face_term_entropy :
  isum dims g n (fun c => inner bs (ev c) (face_term dims F c)) =
  (- isum dims g n (fun c => fold_right Rplus 0 (map (fun d =>
       inner bs (ev (move d 1 c)) (F d c) - inner bs (ev c) (F d c)) (zrange 0 dims))))%R.
Proof.
  set (J := fun d c => (inner bs (ev (move d 1 c)) (F d c))%R).
  rewrite (isum_ext dims g n _ (fun c => (fold_right Rplus 0 (map (fun d => - (J d (move d (-1) c) - J d c)) (zrange 0 dims)) +
     (-1) * fold_right Rplus 0 (map (fun d =>
       inner bs (ev (move d 1 c)) (F d c) - inner bs (ev c) (F d c)) (zrange 0 dims)))%R)).
  - unfold isum. rewrite sum3_plus, sum3_scal.
    assert (Hl : forall d, In d (zrange 0 dims) -> 0 <= d < dims) by (intros d H; now apply zrange_In in H).
    assert (Z0 : sum3 (ilo dims g) (ihi dims g n) (fun c => fold_right Rplus 0%R (map (fun d => (- (J d (move d (-1) c) - J d c))%R) (zrange 0 dims))) = 0%R).
    { induction (zrange 0 dims) as [|d l IH]; cbn [map fold_right]; [apply sum3_zero|].
      rewrite sum3_plus, IH by (intros; apply Hl; now right).
      assert (Hd : 0 <= d < dims) by (apply Hl; now left).
      pose proof (telescope_periodic dims g nx ny nz ltac:(lia) ltac:(lia) Gx Gy Gz d (J d) Hd) as T. unfold isum in T.
      rewrite (sum3_ext _ _ _ (fun c => (-1 * (J d (move d (-1) c) - J d c))%R)) by (intros; ring).
      rewrite sum3_scal, T; [ring|]. intros c Hc. unfold J. now rewrite HF, HE. }
    rewrite Z0. ring.
  - intros c _. unfold face_term.
    assert (G : forall l a, inner bs (ev c) (fold_left (fun a d => vadd a (vadd (F d c) (vscal (-1) (F d (move d (-1) c))))) l a) =
      (inner bs (ev c) a + (fold_right Rplus 0 (map (fun d => - (J d (move d (-1) c) - J d c)) l) +
     (-1) * fold_right Rplus 0 (map (fun d =>
       inner bs (ev (move d 1 c)) (F d c) - inner bs (ev c) (F d c)) l)))%R).
    { induction l as [|d l IH]; intros a; cbn [fold_left map fold_right]; [ring|].
      rewrite IH, !inner_add, inner_scal. unfold J. rewrite move_move. change (-1 + 1) with 0. rewrite move_0. ring. }
    rewrite G, inner_zero. ring.
Qed.
End Faces.

Lemma move_comm a s b t c : move a s (move b t c) = move b t (move a s c).
Proof.
  destruct c as [[x y] z]. unfold move.
  destruct (a =? 0), (b =? 0); [|destruct (b =? 1)|destruct (a =? 1)|destruct (a =? 1), (b =? 1)]; pteq.
Qed.

(** Values of a cell given its two sequences. *)
Lemma values_walk k d SL SR d' SL' SR' c c' : (2 <= k <= 4)%nat ->
  (forall o, - Z.of_nat k < o < Z.of_nat k -> vwalk d SL SR 0 c o = vwalk d' SL' SR' 0 c' o) ->
  (forall o, - Z.of_nat k < o < Z.of_nat k -> vwalk d SL SR d c o = vwalk d' SL' SR' d' c' o) ->
  (SR c - SL c = SR' c' - SL' c')%R ->
  vleft k d SL SR c = vleft k d' SL' SR' c' /\ vright k d SL SR c = vright k d' SL' SR' c'.
Proof.
  intros Hk E0 E1 ED. unfold vleft, vright.
  rewrite (eno_shift_ext (k - 1) (vwalk d SL SR d c) (vwalk d' SL' SR' d' c')) by (intros; apply E1; lia).
  pose proof (eno_shift_le (k - 1) (vwalk d' SL' SR' d' c')).
  destruct (stencil_ext (V := scalar_cvars) (vwalk d SL SR 0 c) (vwalk d' SL' SR' 0 c') k (eno_shift (k - 1) (vwalk d' SL' SR' d' c')))
    as [-> ->]; [lia|lia|exact E0|]. now rewrite ED.
Qed.

Section Local.
Context {V : cvars} (bs : basis V) (eq : diff_eq (V := V)) (m : dmatrix).
Variables (k : nat) (d : Z).
Hypothesis Hk : (2 <= k <= 4)%nat.

(** The face value at a translated cell is that of the translated field. *)
Lemma eface_translate (u : cell -> V) t c :
  eface bs eq m k d u (move d t c) = eface bs eq m k d (fun e => u (move d t e)) c.
Proof.
  unfold eface. cbv beta. rewrite (move_comm d 1 d t c). f_equal. apply col_sum_ext. intros i Hi. unfold fjump.
  assert (ES : forall e, scl bs eq d u i (move d t e) = scl bs eq d (fun e => u (move d t e)) i e).
  { intros e. unfold scl. now rewrite (move_comm d (-1) d t e). }
  assert (ER : forall e, scr bs eq d u i (move d t e) = scr bs eq d (fun e => u (move d t e)) i e).
  { intros e. unfold scr. now rewrite (move_comm d 1 d t e). }
  assert (EJ : forall e, vjump d (scl bs eq d u i) (scr bs eq d u i) (move d t e) =
     vjump d (scl bs eq d (fun e => u (move d t e)) i) (scr bs eq d (fun e => u (move d t e)) i) e).
  { intros e. unfold vjump. now rewrite (move_comm d 1 d t e), ES, ER. }
  assert (EW : forall dd e o, vwalk d (scl bs eq d u i) (scr bs eq d u i) dd (move d t e) o =
     vwalk d (scl bs eq d (fun e => u (move d t e)) i) (scr bs eq d (fun e => u (move d t e)) i) dd e o).
  { intros dd e o. unfold vwalk, walk. rewrite ES. f_equal; [f_equal|]; apply sumz_ext; intros j _; now rewrite move_comm, EJ. }
  assert (EV : forall e, vleft k d (scl bs eq d u i) (scr bs eq d u i) (move d t e) =
      vleft k d (scl bs eq d (fun e => u (move d t e)) i) (scr bs eq d (fun e => u (move d t e)) i) e /\
      vright k d (scl bs eq d u i) (scr bs eq d u i) (move d t e) =
      vright k d (scl bs eq d (fun e => u (move d t e)) i) (scr bs eq d (fun e => u (move d t e)) i) e).
  { intros e. apply values_walk; auto. now rewrite ES, ER. }
  rewrite (move_comm d 1 d t c). now rewrite (proj1 (EV (move d 1 c))), (proj2 (EV c)).
Qed.

Hypothesis Hd : dir d.
(** The cells a face value depends on. *)
Definition near (c e : cell) : Prop := forall j, dir j ->
  if (j =? 0) || (j =? d) then - (Z.of_nat k - 1) <= coord j e - coord j c <= Z.of_nat k else coord j e = coord j c.

Lemma near_move c dd o t : dd = 0 \/ dd = d -> - (Z.of_nat k - 1) <= o + (if dd =? d then t else 0) <= Z.of_nat k ->
  - (Z.of_nat k - 1) <= t <= Z.of_nat k -> - (Z.of_nat k - 1) <= o <= Z.of_nat k -> near c (move dd o (move d t c)).
Proof.
  intros Hdd Ho Ht Ho2 j Hj. assert (dir dd) by (destruct Hdd; subst; [unfold dir; lia|auto]).
  rewrite !coord_move by auto.
  destruct (Z.eqb_spec j 0), (Z.eqb_spec j d), (Z.eqb_spec j dd), (Z.eqb_spec dd d); cbn [orb]; subst; try lia.
Qed.
Lemma near_move1 c t : - (Z.of_nat k - 1) <= t <= Z.of_nat k -> near c (move d t c).
Proof.
  intros Ht j Hj. rewrite coord_move by auto. destruct (Z.eqb_spec j 0), (Z.eqb_spec j d); cbn [orb]; subst; lia.
Qed.
Lemma near_0 c : near c c.
Proof. intros j Hj. destruct (_ || _); lia. Qed.

Lemma eface_ext (u u' : cell -> V) c : (forall e, near c e -> u e = u' e) -> eface bs eq m k d u c = eface bs eq m k d u' c.
Proof.
  intros H. unfold eface.
  assert (H0 := H c (near_0 c)). assert (H1 := H (move d 1 c) (near_move1 c 1 ltac:(lia))). rewrite H0, H1.
  f_equal. apply col_sum_ext. intros i Hi. unfold fjump.
  assert (ES : forall e, near c e -> near c (move d (-1) e) -> scl bs eq d u i e = scl bs eq d u' i e).
  { intros e N1 N2. unfold scl. now rewrite (H _ N1), (H _ N2). }
  assert (ER : forall e, near c e -> near c (move d 1 e) -> scr bs eq d u i e = scr bs eq d u' i e).
  { intros e N1 N2. unfold scr. now rewrite (H _ N1), (H _ N2). }
  assert (EJ : forall e, near c e -> near c (move d 1 e) ->
     vjump d (scl bs eq d u i) (scr bs eq d u i) e = vjump d (scl bs eq d u' i) (scr bs eq d u' i) e).
  { intros e N1 N2. unfold vjump. rewrite ES, ER; auto. rewrite move_move. change (1 + -1) with 0. now rewrite move_0. }
  assert (EV : forall t, 0 <= t <= 1 ->
    vleft k d (scl bs eq d u i) (scr bs eq d u i) (move d t c) = vleft k d (scl bs eq d u' i) (scr bs eq d u' i) (move d t c) /\
    vright k d (scl bs eq d u i) (scr bs eq d u i) (move d t c) = vright k d (scl bs eq d u' i) (scr bs eq d u' i) (move d t c)).
  { intros t Ht. apply values_ext; auto.
    - apply ES; rewrite ?move_move; apply near_move1; lia.
    - apply ER; rewrite ?move_move; apply near_move1; lia.
    - intros o Ho. apply EJ.
      + apply near_move; try lia; auto. destruct (0 =? d); lia.
      + rewrite (move_comm d 1 0 o), move_move. apply near_move; try lia; auto. destruct (0 =? d); lia.
    - intros o Ho. rewrite move_move. apply EJ; rewrite ?move_move; apply near_move1; lia. }
  pose proof (proj2 (EV 0 ltac:(lia))) as X0. rewrite move_0 in X0. now rewrite (proj1 (EV 1 ltac:(lia))), X0.
Qed.
End Local.

Section Periodic.
Context {V : cvars} (bs : basis V) (eq : diff_eq (V := V)) (m : dmatrix).
Variables (dims g nx ny nz : Z) (k : nat).
Hypothesis Hdims : 1 <= dims <= 3.
Hypothesis Hk : (2 <= k <= 4)%nat.
Hypothesis Hg : Z.of_nat k + 1 <= g.
Hypothesis (Hx : 0 < nx) (Hy : 0 < ny) (Hz : 0 < nz).
Hypothesis (Gx : g <= nx) (Gy : 1 < dims -> g <= ny) (Gz : 2 < dims -> g <= nz).
Variable u : cell -> V.
Hypothesis Hp : forall c, in_volume dims g nx ny nz c -> u c = u (image periodic1 dims g nx ny nz c).
Notation n := (nvec nx ny nz).

Lemma in_volume_coord c : (forall j, dir j -> 0 <= coord j c < n j + (if j <? dims then 2 * g else 0)) -> in_volume dims g nx ny nz c.
Proof.
  intros H.
  apply (in_volume_iff (mkvol (nx + 2 * g) (if 1 <? dims then ny + 2 * g else ny)
             (if 2 <? dims then nz + 2 * g else nz) (fun _ : Z => 0))); [lia|repeat split|].
  apply inr_iff. intros j Hj. rewrite (total_extents _ dims g nx ny nz j) by (repeat split; auto; lia). now apply H.
Qed.

Lemma wrap d e : 0 <= d < dims -> in_volume dims g nx ny nz e -> in_volume dims g nx ny nz (move d (n d) e) ->
  u (move d (n d) e) = u e.
Proof.
  intros Hd H1 H2. assert (Dd : dir d) by (unfold dir; lia).
  assert (Dm : d <? dims = true) by (apply Z.ltb_lt; lia).
  rewrite (Hp _ H1), (Hp _ H2). f_equal. apply coord_ext. intros j Hj. rewrite !image_coord by (auto; lia).
  rewrite coord_move by auto. destruct (Z.eqb_spec j d) as [->|Nk]; [|now rewrite Z.add_0_r].
  rewrite Dm. unfold periodic1. f_equal.
  replace (coord d e + n d - g) with (coord d e - g + 1 * n d) by ring. apply Z.mod_add.
  pose proof (nvec_g dims g nx ny nz Gx Gy Gz d Hd). lia.
Qed.

Lemma eface_periodic d c : 0 <= d < dims -> low_cell dims g nx ny nz d c ->
  eface bs eq m k d u (move d (n d) c) = eface bs eq m k d u c.
Proof.
  intros Hd [Hc Hcd]. assert (Dd : dir d) by (unfold dir; lia).
  rewrite eface_translate by exact Hk. apply eface_ext; auto. intros e He.
  assert (HN : forall j, dir j -> j < dims -> g <= n j) by (intros j Hj Hjd; apply (nvec_g dims g nx ny nz Gx Gy Gz); unfold dir in Hj; lia).
  assert (Hn : forall j, dir j -> 1 <= n j) by (intros j Hj; unfold nvec; dcase Hj; simpl; lia).
  apply wrap; auto; apply in_volume_coord; intros j Hj; specialize (He j Hj); specialize (HN j Hj); specialize (Hn j Hj).
  - destruct (Z.eqb_spec j d) as [Ej|Nj].
    + subst j. rewrite orb_true_r in He. unfold ilo in Hcd. destruct (Z.ltb_spec d dims); lia.
    + specialize (Hc j Hj Nj). rewrite orb_false_r in He. unfold ilo, ihi in Hc.
      destruct (Z.eqb_spec j 0), (Z.ltb_spec j dims); lia.
  - rewrite coord_move by auto. destruct (Z.eqb_spec j d) as [Ej|Nj].
    + subst j. rewrite orb_true_r in He. unfold ilo in Hcd. destruct (Z.ltb_spec d dims); lia.
    + specialize (Hc j Hj Nj). rewrite orb_false_r in He. unfold ilo, ihi in Hc.
      destruct (Z.eqb_spec j 0), (Z.ltb_spec j dims); lia.
Qed.
End Periodic.

(** Order two along x: a limited slope. *)
Lemma order_two SL SR c : exists s : R,
  (Rabs s <= Rabs (vjump 0%Z SL SR c) /\ Rabs s <= Rabs (vjump 0%Z SL SR (move 0 (-1) c)) /\
   vleft 2 0 SL SR c = SL c - s / 2 /\ vright 2 0 SL SR c = SR c + s / 2)%R.
Proof.
  unfold vleft, vright. set (W := vwalk 0 SL SR 0 c).
  assert (W0 : W 0 = SL c) by (unfold W, vwalk; apply walk_0).
  assert (E1 : (W 1%Z - W 0%Z)%R = vjump 0 SL SR c).
  { unfold W, vwalk. pose proof (walk_step (SL c) (fun o => vjump 0 SL SR (move 0 o c)) 0) as E. cbv beta in E.
    rewrite move_0 in E. exact E. }
  assert (E2 : (W 0%Z - W (-1)%Z)%R = vjump 0 SL SR (move 0 (-1) c)).
  { unfold W, vwalk. exact (walk_step (SL c) (fun o => vjump 0 SL SR (move 0 o c)) (-1)). }
  change (2 - 1)%nat with 1%nat. cbn [eno_shift ddiff]. change (-1 + 1) with 0. change (0 + 1) with 1.
  rewrite E1, E2. clearbody W.
  destruct (Rlt_dec _ _) as [H|H].
  - exists (vjump 0 SL SR (move 0 (-1) c)). split; [lra|]. split; [lra|].
    unfold stencil_left, stencil_right. change (0 + 1)%nat with 1%nat. cbn [nth eno_coef lincomb].
    change (- Z.of_nat 1) with (-1). change (-1 + 1) with 0. cbn [vadd vscal vzero scalar_cvars]. split; lra.
  - exists (vjump 0 SL SR c). split; [lra|]. split; [lra|].
    unfold stencil_left, stencil_right. change (0 + 0)%nat with 0%nat. cbn [nth eno_coef lincomb].
    change (- Z.of_nat 0) with 0. change (0 + 1) with 1. cbn [vadd vscal vzero scalar_cvars]. split; lra.
Qed.

Section OneDim.
Context {V : cvars} (bs : basis V) (eq : diff_eq (V := V)) (m : dmatrix).
Hypothesis Hsq : square bs eq.

Lemma face_rec k (u : cell -> V) c : (2 <= k <= 4)%nat -> eface bs eq m k 0 u c = rec_dissipation bs eq m k 0 (along 0 u c).
Proof.
  intros Hk. unfold eface, rec_dissipation, face_cols, along. change (0 + 1) with 1. rewrite move_0. f_equal.
  apply col_sum_ext. intros i Hi. unfold fjump, rec_jump, tecno_rec. cbn [fst snd].
  assert (ES : forall j, scl bs eq 0 u i (move 0 j c) = scaled_left bs eq 0 (fun o => u (move 0 o c)) j i).
  { intros j. unfold scl, scaled_left, face_cols. rewrite move_move. replace (j - 1 + 1) with j by ring. reflexivity. }
  assert (ER : forall j, scr bs eq 0 u i (move 0 j c) = scaled_right bs eq 0 (fun o => u (move 0 o c)) j i).
  { intros j. unfold scr, scaled_right, face_cols. now rewrite move_move. }
  assert (EW : forall j o, vwalk 0 (scl bs eq 0 u i) (scr bs eq 0 u i) 0 (move 0 j c) o =
    walk (scaled_left bs eq 0 (fun o => u (move 0 o c)) j i) (fun o => face_jump bs eq 0 (fun o => u (move 0 o c)) (j + o) i) o).
  { intros j o. unfold vwalk, walk. rewrite ES. f_equal; [f_equal|]; apply sumz_ext; intros q _; unfold vjump, face_jump;
      rewrite !move_move, ?Z.add_assoc, <- ES, <- ER; reflexivity. }
  assert (EV : forall j, vleft k 0 (scl bs eq 0 u i) (scr bs eq 0 u i) (move 0 j c) =
      fst (tecno_rec bs eq k 0 (fun o => u (move 0 o c)) j i) /\
      vright k 0 (scl bs eq 0 u i) (scr bs eq 0 u i) (move 0 j c) =
      snd (tecno_rec bs eq k 0 (fun o => u (move 0 o c)) j i)).
  { intros j. unfold vleft, vright, tecno_rec, eno. cbn [fst snd].
    rewrite (eno_shift_ext (k - 1) (vwalk 0 (scl bs eq 0 u i) (scr bs eq 0 u i) 0 (move 0 j c)) _ (fun o _ => EW j o)).
    match goal with |- context [eno_shift (k - 1) ?W] => pose proof (eno_shift_le (k - 1) W) end.
    match goal with |- context [stencil_left ?A k ?s] =>
      destruct (stencil_ext (V := scalar_cvars) A _ k s ltac:(lia) ltac:(lia) (fun o _ => EW j o)) as [-> ->] end.
    now rewrite ES, ER. }
  pose proof (proj2 (EV 0)) as X. rewrite move_0 in X. now rewrite (proj1 (EV 1)), X.
Qed.

Lemma inner_col_sum a b cols w r :
  (inner bs a (col_sum bs cols w r) - inner bs b (col_sum bs cols w r))%R =
  fold_right Rplus 0%R (map (fun i => (nth i w 0 * (r i * (inner bs (nth i cols vzero) a - inner bs (nth i cols vzero) b)))%R) (seq 0 (bdim bs))).
Proof.
  unfold col_sum. induction (seq 0 (bdim bs)) as [|i l IH]; cbn [fold_right map]; [rewrite !inner_zero; ring|].
  rewrite <- IH, !inner_add, !inner_scal, !(inner_sym bs _ (nth i cols vzero)). ring.
Qed.

(** The jump of the reconstructed values has the sign of the jump of the values
    (order two). *)
Lemma fjump_sign (u : cell -> V) c i :
  (0 <= fjump bs eq 2 0 u c i * vjump 0 (scl bs eq 0 u i) (scr bs eq 0 u i) c)%R.
Proof.
  unfold fjump. set (SL := scl bs eq 0 u i). set (SR := scr bs eq 0 u i).
  destruct (order_two SL SR c) as (s & A1 & _ & _ & A4).
  destruct (order_two SL SR (move 0 1 c)) as (t & _ & B2 & B3 & _).
  rewrite move_move in B2. change (1 + -1) with 0 in B2. rewrite move_0 in B2. rewrite B3, A4.
  set (J := vjump 0 SL SR c) in *.
  replace (SL (move 0 1 c) - t / 2 - (SR c + s / 2))%R with (J - (s + t) / 2)%R by (unfold J, vjump; field).
  unfold Rabs in *. destruct (Rcase_abs s), (Rcase_abs t), (Rcase_abs J); nra.
Qed.

Lemma eface_nonneg (u : cell -> V) c :
  (0 <= inner bs (dentropy eq (u (move 0 1 c))) (eface bs eq m 2 0 u c) - inner bs (dentropy eq (u c)) (eface bs eq m 2 0 u c))%R.
Proof.
  unfold eface. set (cols := dcols eq 0 _). set (w := weights m _).
  rewrite !inner_scal. rewrite <- Rmult_minus_distr_l, inner_col_sum.
  apply Rmult_le_pos; [lra|].
  assert (Hw : forall i, (0 <= nth i w 0)%R).
  { intros i. destruct (Nat.lt_ge_cases i (length w)) as [H|H].
    - apply (weights_nonneg m (deigs eq 0 (average (u (move 0 1 c)) (u c)))). now apply nth_In.
    - rewrite nth_overflow by exact H. lra. }
  induction (seq 0 (bdim bs)) as [|i l IH]; cbn [fold_right map]; [lra|].
  apply Rplus_le_le_0_compat; [|exact IH]. apply Rmult_le_pos; [apply Hw|].
  assert (EJ : vjump 0 (scl bs eq 0 u i) (scr bs eq 0 u i) c =
    (inner bs (nth i cols vzero) (dentropy eq (u (move 0 1 c))) - inner bs (nth i cols vzero) (dentropy eq (u c)))%R).
  { unfold vjump, scl, scr. rewrite move_move. change (1 + -1) with 0. now rewrite move_0. }
  rewrite <- EJ. apply fjump_sign.
Qed.
End OneDim.
