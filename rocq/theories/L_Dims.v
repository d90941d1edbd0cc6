(** Checked component reads: agreement inside the vectors, undefined outside. *)
From Coq Require Import ZArith Reals List Bool Lia.
From Verif Require Import M_Base M_Boundary M_Vec M_Flux M_Combined M_Euler M_Scalar M_Recon M_Config M_Dims L_Base L_Flux.
Import ListNotations.

(** * Evaluation of one flux *)
Section Inside.
Variable n : nat.
Variable gamma : R.
Variable d : nat.
Hypothesis Hd : (d < n)%nat.

Lemma vread_in v : vread n d v = Ok (vnth n d v).
Proof. unfold vread. now rewrite (proj2 (Nat.ltb_lt d n) Hd). Qed.
Lemma vwrite_in x v : vwrite n d x v = Ok (vset n d x v).
Proof. unfold vwrite. now rewrite (proj2 (Nat.ltb_lt d n) Hd). Qed.
Lemma c_flux_in u : c_flux n gamma d u = Ok (euler_flux n gamma d u).
Proof. unfold c_flux. rewrite !vread_in. cbn [bind]. rewrite vread_in. cbn [bind]. rewrite vwrite_in. reflexivity. Qed.
Lemma c_speed_in u : c_speed n gamma d u = Ok (euler_speed n gamma d u).
Proof. unfold c_speed. now rewrite vread_in. Qed.
Lemma c_hll_speeds_in l r : c_hll_speeds n gamma d l r = Ok (hll_left n gamma d l r, hll_right n gamma d l r).
Proof. unfold c_hll_speeds. now rewrite !vread_in. Qed.
Lemma c_hll3_speeds_in l r : c_hll3_speeds n gamma d l r = Ok (hll3_left n gamma d l r, hll3_right n gamma d l r).
Proof. unfold c_hll3_speeds. now rewrite !vread_in. Qed.
Lemma c_middle_in a s sm us : c_middle n gamma d a s sm us = Ok (hll3_middle n gamma d a s sm us).
Proof. unfold c_middle. now rewrite vread_in. Qed.
End Inside.

Section Outside.
Variable n : nat.
Variable gamma : R.
Variable d : nat.
Hypothesis Hd : (n <= d)%nat.

Lemma vread_out v : vread n d v = UB.
Proof. unfold vread. now rewrite (proj2 (Nat.ltb_ge d n) Hd). Qed.
Lemma c_flux_out u : c_flux n gamma d u = UB.
Proof. unfold c_flux. now rewrite !vread_out. Qed.
Lemma c_hll_speeds_out l r : c_hll_speeds n gamma d l r = UB.
Proof. unfold c_hll_speeds. now rewrite !vread_out. Qed.
Lemma c_hll3_speeds_out l r : c_hll3_speeds n gamma d l r = UB.
Proof. unfold c_hll3_speeds. now rewrite !vread_out. Qed.
End Outside.

Section Two.
Variable n : nat.
Variable gamma : R.
Variable d : Z.

Section In.
Hypothesis Hd : (Z.to_nat d < n)%nat.
Lemma c_central_in l r : c_central n gamma d l r = Ok (euler_central n gamma d l r).
Proof. unfold c_central. rewrite !c_flux_in, !c_speed_in by exact Hd. reflexivity. Qed.
Lemma c_hll_in l r : c_hll n gamma d l r = Ok (hll n gamma d l r).
Proof.
  unfold c_hll, hll. rewrite c_hll_speeds_in by exact Hd. cbn [bind].
  rewrite !c_flux_in by exact Hd.
  destruct (Req_EM_T _ _); [reflexivity|]. destruct (Rgt_dec _ _); [reflexivity|].
  destruct (Rlt_dec _ _); reflexivity.
Qed.
Lemma c_hll3_in l r : c_hll3 n gamma d l r = Ok (hll3 n gamma d l r).
Proof.
  unfold c_hll3, hll3. rewrite c_hll3_speeds_in by exact Hd. cbn [bind].
  rewrite !c_flux_in, !vread_in by exact Hd. cbn [bind]. rewrite vwrite_in by exact Hd. cbn [bind].
  rewrite !c_middle_in by exact Hd. cbn [bind].
  destruct (Req_EM_T _ _); [reflexivity|]. destruct (Rgt_dec _ _); [reflexivity|].
  destruct (Rlt_dec _ _); [reflexivity|]. destruct (Rge_dec _ _); reflexivity.
Qed.
Lemma c_tecno1_in l r : c_tecno1 n gamma d l r = Ok (tecno1 gamma n d l r).
Proof.
  unfold c_tecno1, tecno1. rewrite c_hll3_speeds_in, c_flux_in by exact Hd.
  destruct (cons_eqb n l r); reflexivity.
Qed.
End In.

Section Out.
Hypothesis Hd : (n <= Z.to_nat d)%nat.
Lemma c_central_out l r : c_central n gamma d l r = UB.
Proof. unfold c_central. now rewrite c_flux_out by exact Hd. Qed.
Lemma c_hll_out l r : c_hll n gamma d l r = UB.
Proof. unfold c_hll. now rewrite c_hll_speeds_out by exact Hd. Qed.
Lemma c_hll3_out l r : c_hll3 n gamma d l r = UB.
Proof. unfold c_hll3. now rewrite c_hll3_speeds_out by exact Hd. Qed.
Lemma c_tecno1_out l r : c_tecno1 n gamma d l r = UB.
Proof.
  unfold c_tecno1. rewrite c_flux_out, c_hll3_speeds_out by exact Hd.
  destruct (cons_eqb n l r); reflexivity.
Qed.
End Out.
End Two.

Lemma map_res_length {A B} (f : A -> res B) l l' : map_res f l = Ok l' -> List.length l' = List.length l.
Proof.
  revert l'. induction l as [|a l IH]; intros l' H.
  - injection H as <-. reflexivity.
  - cbn [map_res] in H. destruct (f a) as [b| |]; try discriminate H. cbn [bind] in H.
    destruct (map_res f l) as [l''| |]; try discriminate H. cbn [bind] in H. injection H as <-.
    cbn. now rewrite (IH l'').
Qed.

Lemma c_euler_in n gamma k d (left right : vol (euler_cvars n)) x y z : (Z.to_nat d < n)%nat ->
  c_flux_at (c_euler n gamma k) d left right x y z = flux_at (euler_numflux n gamma k) d left right x y z.
Proof.
  intros Hd. destruct k; cbn [c_euler euler_numflux c_flux_at flux_at c_combined4 c_combined6 combined4 combined6].
  1-4: (destruct (vload left _ _ _) as [r| |]; [|reflexivity..]; cbn [bind];
    destruct (vload right _ _ _) as [l| |]; [|reflexivity..]; cbn [bind]).
  - apply c_hll_in, Hd.
  - apply c_hll3_in, Hd.
  - apply c_central_in, Hd.
  - apply c_tecno1_in, Hd.
  - destruct (map_res _ _) as [us| |]; [|reflexivity..]; cbn [bind].
    destruct us as [|a [|b [|c [|e [|]]]]]; try reflexivity.
    rewrite !c_tecno1_in by exact Hd. reflexivity.
  - destruct (map_res _ _) as [us| |]; [|reflexivity..]; cbn [bind].
    destruct us as [|a [|b [|c [|e [|f [|h [|]]]]]]]; try reflexivity.
    rewrite !c_tecno1_in by exact Hd. reflexivity.
Qed.

Definition never_ok {A} (r : res A) : Prop := forall a, r <> Ok a.
Definition no_throw {A} (r : res A) : Prop := r <> Throw.

Lemma c_euler_out n gamma k d (left right : vol (euler_cvars n)) x y z : (n <= Z.to_nat d)%nat ->
  never_ok (c_flux_at (c_euler n gamma k) d left right x y z).
Proof.
  intros Hd q. destruct k; cbn [c_euler c_flux_at c_combined4 c_combined6].
  1-4: (destruct (vload left _ _ _) as [r| |]; [|discriminate..]; cbn [bind];
    destruct (vload right _ _ _) as [l| |]; [|discriminate..]; cbn [bind]).
  - rewrite c_hll_out by exact Hd. discriminate.
  - rewrite c_hll3_out by exact Hd. discriminate.
  - rewrite c_central_out by exact Hd. discriminate.
  - rewrite c_tecno1_out by exact Hd. discriminate.
  - destruct (map_res _ _) as [us| |] eqn:E; [|discriminate..]; cbn [bind].
    apply map_res_length in E. destruct us as [|a [|b [|c [|e [|]]]]]; try discriminate E.
    rewrite c_tecno1_out by exact Hd. discriminate.
  - destruct (map_res _ _) as [us| |] eqn:E; [|discriminate..]; cbn [bind].
    apply map_res_length in E. destruct us as [|a [|b [|c [|e [|f [|h [|]]]]]]]; try discriminate E.
    rewrite c_tecno1_out by exact Hd. discriminate.
Qed.

Lemma total_flux_at {V : cvars} (fx : numflux V) d left right x y z :
  c_flux_at (total_flux fx) d left right x y z = flux_at fx d left right x y z.
Proof. destruct fx; reflexivity. Qed.

(** * Nothing throws *)
Lemma bind_no_throw {A B} (r : res A) (f : A -> res B) :
  no_throw r -> (forall a, no_throw (f a)) -> no_throw (bind r f).
Proof. intros H F. destruct r; [apply F|discriminate|now elim H]. Qed.
Lemma vload_no_throw {A} (v : vol A) x y z : no_throw (vload v x y z).
Proof. unfold vload. destruct (inb v x y z); discriminate. Qed.
Lemma vstore_no_throw {A} (v : vol A) x y z a : no_throw (vstore v x y z a).
Proof. unfold vstore. destruct (inb v x y z); discriminate. Qed.
Lemma fold_no_throw {I S} (body : I -> S -> res S) l s :
  (forall i s, no_throw (body i s)) -> no_throw (fold_res body l s).
Proof.
  intros H. revert s. induction l as [|i l IH]; intros s; cbn [fold_res]; [discriminate|].
  apply bind_no_throw; auto.
Qed.
Lemma for3_no_throw {S} zl zh yl yh xl xh (body : Z -> Z -> Z -> S -> res S) s :
  (forall x y z s, no_throw (body x y z s)) -> no_throw (for3 zl zh yl yh xl xh body s).
Proof. intros H. unfold for3, for_. apply fold_no_throw. intros z s1. apply fold_no_throw.
  intros y s2. apply fold_no_throw. intros x s3. apply H. Qed.
Lemma map_no_throw {A B} (f : A -> res B) l : (forall a, no_throw (f a)) -> no_throw (map_res f l).
Proof.
  intros H. induction l as [|a l IH]; cbn [map_res]; [discriminate|].
  apply bind_no_throw; [apply H|]. intros b. apply bind_no_throw; [exact IH|]. discriminate.
Qed.

Ltac nothrow :=
  repeat match goal with
  | |- no_throw (bind _ _) => apply bind_no_throw; [|intros]
  | |- no_throw (vload _ _ _ _) => apply vload_no_throw
  | |- no_throw (vstore _ _ _ _ _) => apply vstore_no_throw
  | |- no_throw (map_res _ _) => apply map_no_throw; intros
  | |- no_throw (for3 _ _ _ _ _ _ _ _) => apply for3_no_throw; intros
  | |- no_throw (fold_res _ _ _) => apply fold_no_throw; intros
  | |- no_throw (Ok _) => discriminate
  end.

Lemma vread_no_throw n d v : no_throw (vread n d v).
Proof. unfold vread. destruct (_ <? _)%nat; discriminate. Qed.
Lemma vwrite_no_throw n d x v : no_throw (vwrite n d x v).
Proof. unfold vwrite. destruct (_ <? _)%nat; discriminate. Qed.

Lemma c_euler_no_throw n gamma k d (left right : vol (euler_cvars n)) x y z :
  no_throw (c_flux_at (c_euler n gamma k) d left right x y z).
Proof.
  destruct (Nat.lt_ge_cases (Z.to_nat d) n) as [H|H].
  - rewrite c_euler_in by exact H. destruct (euler_numflux n gamma k); cbn [flux_at]; nothrow.
  - destruct k; cbn [c_euler c_flux_at c_combined4 c_combined6]; nothrow.
    + rewrite c_hll_out by exact H. discriminate.
    + rewrite c_hll3_out by exact H. discriminate.
    + rewrite c_central_out by exact H. discriminate.
    + rewrite c_tecno1_out by exact H. discriminate.
    + destruct a as [|a [|b [|c [|e [|]]]]]; try discriminate.
      rewrite c_tecno1_out by exact H. discriminate.
    + destruct a as [|a [|b [|c [|e [|f [|h [|]]]]]]]; try discriminate.
      rewrite c_tecno1_out by exact H. discriminate.
Qed.

(** * Agreement of the right hand sides *)
Section Agree.
Context {V : cvars}.
Variables dims g : Z.
Variables (cf : cflux V) (fx : numflux V) (rc : recon V).
Hypothesis agree : forall d left right x y z, (0 <= d < dims)%Z ->
  c_flux_at cf d left right x y z = flux_at fx d left right x y z.

Lemma for3_ext {S} zl zh yl yh xl xh (f h : Z -> Z -> Z -> S -> res S) s :
  (forall x y z s, f x y z s = h x y z s) -> for3 zl zh yl yh xl xh f s = for3 zl zh yl yh xl xh h s.
Proof.
  intros H. unfold for3, for_. apply fold_res_ext. intros z s1 _. apply fold_res_ext. intros y s2 _.
  apply fold_res_ext. intros x s3 _. apply H.
Qed.

Lemma bind_ext {A B} (r r' : res A) (f h : A -> res B) :
  r = r' -> (forall a, f a = h a) -> bind r f = bind r' h.
Proof. intros <- H. destruct r; cbn [bind]; auto. Qed.

Lemma net_agree d left right out temp start fin : (0 <= d < dims)%Z ->
  c_net_flux dims g cf d left right out temp start fin = net_flux dims g fx d left right out temp start fin.
Proof.
  intros Hd. unfold c_net_flux, net_flux. apply bind_ext; [|reflexivity].
  apply for3_ext. intros x y z tw. rewrite agree by exact Hd. reflexivity.
Qed.

Lemma in_zrange lo hi i : In i (zrange lo hi) -> (lo <= i < hi)%Z.
Proof. unfold zrange. rewrite in_map_iff. intros [k [<- H]]. apply in_seq in H. lia. Qed.

Lemma compute_agree u start fin s :
  c_compute_flux dims g cf rc u start fin s = compute_flux dims g fx rc u start fin s.
Proof.
  unfold c_compute_flux, compute_flux. apply bind_ext; [reflexivity|]. intros o.
  unfold for_. apply fold_res_ext. intros d s1 Hd. apply in_zrange in Hd.
  apply bind_ext; [reflexivity|]. intros lr. rewrite net_agree by exact Hd. reflexivity.
Qed.

Lemma system_agree exchange u s :
  c_system_flux dims g cf rc exchange u s = system_flux dims g fx rc exchange u s.
Proof.
  unfold c_system_flux, system_flux. rewrite compute_agree. apply bind_ext; [reflexivity|]. intros s1.
  apply bind_ext; [reflexivity|]. intros u'. apply bind_ext; [|reflexivity].
  unfold for_. apply fold_res_ext. intros d [s2 sides] _. rewrite compute_agree.
  apply bind_ext; [reflexivity|]. intros sb. rewrite compute_agree. reflexivity.
Qed.
End Agree.

(** * A flux that is never defined in some direction of the grid *)
Section Undefined.
Context {V : cvars}.
Variables dims g : Z.
Variables (cf : cflux V) (rc : recon V).
Hypothesis quiet : forall d left right x y z, no_throw (c_flux_at cf d left right x y z).

Lemma net_no_throw d left right out temp start fin : no_throw (c_net_flux dims g cf d left right out temp start fin).
Proof. unfold c_net_flux. nothrow. apply quiet. Qed.
Lemma compute_no_throw u start fin s : no_throw (c_compute_flux dims g cf rc u start fin s).
Proof.
  unfold c_compute_flux, make_zero, for_. nothrow.
  - unfold reconstruct. nothrow.
  - apply net_no_throw.
Qed.
Lemma system_no_throw exchange u s :
  no_throw (exchange u) -> no_throw (c_system_flux dims g cf rc exchange u s).
Proof.
  intros H. unfold c_system_flux, for_. nothrow; try exact H; try apply compute_no_throw.
  destruct s0 as [s2 sides]. nothrow; apply compute_no_throw.
Qed.

(** Extents are kept. *)
Lemma fold_keeps {I S} (P : S -> Prop) (body : I -> S -> res S) l s s' :
  (forall i s s', P s -> body i s = Ok s' -> P s') -> P s -> fold_res body l s = Ok s' -> P s'.
Proof.
  intros H. revert s. induction l as [|i l IH]; intros s Hs E; cbn [fold_res] in E.
  - injection E as <-. exact Hs.
  - destruct (body i s) as [s1| |] eqn:E1; try discriminate E. cbn [bind] in E.
    apply (IH s1); [now apply (H i s)|exact E].
Qed.
Lemma for3_keeps {S} (P : S -> Prop) zl zh yl yh xl xh (body : Z -> Z -> Z -> S -> res S) s s' :
  (forall x y z s s', P s -> body x y z s = Ok s' -> P s') -> P s ->
  for3 zl zh yl yh xl xh body s = Ok s' -> P s'.
Proof.
  intros H Hs. unfold for3, for_. apply fold_keeps; [|exact Hs]. intros z s1 s2 H1.
  apply fold_keeps; [|exact H1]. intros y s3 s4 H3. apply fold_keeps; [|exact H3].
  intros x s5 s6 H5. now apply H.
Qed.
Lemma bind_ok {A B} (r : res A) (f : A -> res B) b : bind r f = Ok b -> exists a, r = Ok a /\ f a = Ok b.
Proof. destruct r as [a| |]; try discriminate. intros H. now exists a. Qed.

Definition has_ext (v w : vol V) : Prop := forall k, total v k = total w k.
Lemma has_ext_parts v w : has_ext v w -> vnx v = vnx w /\ vny v = vny w /\ vnz v = vnz w.
Proof. intros H. repeat split; [apply (H 0%Z)|apply (H 1%Z)|apply (H 2%Z)]. Qed.

Lemma vstore_ext (v v' : vol V) x y z a w : has_ext v w -> vstore v x y z a = Ok v' -> has_ext v' w.
Proof.
  unfold vstore. intros H E. destruct (inb v x y z); [|discriminate E]. injection E as <-.
  intros k. rewrite <- H. reflexivity.
Qed.

Lemma make_zero_ext start fin o o' w :
  has_ext o w -> make_zero dims g start fin o = Ok o' -> has_ext o' w.
Proof.
  intros H. unfold make_zero. apply (for3_keeps (fun o => has_ext o w)); [|exact H].
  intros x y z o1 o2 H1. now apply vstore_ext.
Qed.
Lemma net_ext d left right out temp start fin r w :
  has_ext out w -> c_net_flux dims g cf d left right out temp start fin = Ok r -> has_ext (fst (fst r)) w.
Proof.
  intros H E. unfold c_net_flux in E. apply bind_ok in E as [tw [_ E]]. apply bind_ok in E as [o [E1 E]].
  injection E as <-. cbn [fst]. revert E1. apply (for3_keeps (fun o => has_ext o w)); [|exact H].
  intros x y z o1 o2 H1 E. apply bind_ok in E as [a [_ E]]. apply bind_ok in E as [b [_ E]].
  apply bind_ok in E as [c [_ E]]. revert E. now apply vstore_ext.
Qed.
Lemma compute_ext u start fin s s' w :
  has_ext (f_out s) w -> c_compute_flux dims g cf rc u start fin s = Ok s' -> has_ext (f_out s') w.
Proof.
  intros H E. unfold c_compute_flux in E. apply bind_ok in E as [o [E1 E]].
  revert E. apply (fold_keeps (fun s => has_ext (f_out s) w)).
  - intros d s1 s2 H1 E. apply bind_ok in E as [lr [_ E]]. apply bind_ok in E as [r [E2 E]].
    injection E as <-. cbn [f_out]. now apply (net_ext _ _ _ _ _ _ _ _ _ H1 E2).
  - cbn [f_out]. now apply (make_zero_ext start fin (f_out s)).
Qed.

(** A loop whose body is never defined. *)
Lemma fold_reaches {I S} (P : S -> Prop) (body : I -> S -> res S) l s s' i :
  (forall i s s', P s -> body i s = Ok s' -> P s') -> P s -> In i l ->
  fold_res body l s = Ok s' -> exists s1 s2, P s1 /\ body i s1 = Ok s2.
Proof.
  intros H. revert s. induction l as [|j l IH]; intros s Hs Hi E; [destruct Hi|].
  cbn [fold_res] in E. apply bind_ok in E as [s1 [E1 E]]. destruct Hi as [->|Hi].
  - now exists s, s1.
  - apply (IH s1); auto. now apply (H j s).
Qed.
Lemma in_zrange_iff lo hi i : (lo <= i < hi)%Z -> In i (zrange lo hi).
Proof.
  intros H. unfold zrange. apply in_map_iff. exists (Z.to_nat (i - lo)). split; [lia|].
  apply in_seq. lia.
Qed.
Lemma for3_reaches {S} zl zh yl yh xl xh (body : Z -> Z -> Z -> S -> res S) s s' :
  (zl < zh)%Z -> (yl < yh)%Z -> (xl < xh)%Z ->
  for3 zl zh yl yh xl xh body s = Ok s' -> exists s1 s2, body xl yl zl s1 = Ok s2.
Proof.
  intros Hz Hy Hx E. unfold for3, for_ in E.
  destruct (fold_reaches (fun _ => True) _ _ _ _ zl (fun _ _ _ _ _ => I) I (in_zrange_iff zl zh zl ltac:(lia)) E)
    as [s1 [s2 [_ E1]]].
  destruct (fold_reaches (fun _ => True) _ _ _ _ yl (fun _ _ _ _ _ => I) I (in_zrange_iff yl yh yl ltac:(lia)) E1)
    as [s3 [s4 [_ E2]]].
  destruct (fold_reaches (fun _ => True) _ _ _ _ xl (fun _ _ _ _ _ => I) I (in_zrange_iff xl xh xl ltac:(lia)) E2)
    as [s5 [s6 [_ E3]]].
  now exists s5, s6.
Qed.

Variable d0 : Z.
Hypothesis bad : forall left right x y z, never_ok (c_flux_at cf d0 left right x y z).
Hypothesis d0_in : (0 <= d0 < dims)%Z.
Hypothesis Hdims : (1 <= dims <= 3)%Z.
Hypothesis Hg : (1 <= g)%Z.

Lemma system_never exchange u s :
  (forall k, (0 <= k < 3)%Z -> (2 * ghost dims g k < total (f_out s) k)%Z) ->
  never_ok (c_system_flux dims g cf rc exchange u s).
Proof.
  intros Hn q E. unfold c_system_flux in E. apply bind_ok in E as [s1 [E1 E]].
  apply bind_ok in E as [u' [_ E]]. apply bind_ok in E as [r [E _]].
  apply (compute_ext _ _ _ _ _ (f_out s)) in E1; [|intros k; reflexivity].
  set (P := fun st : fstate V * (Z -> R) => has_ext (f_out (fst st)) (f_out s)).
  refine (_ (fold_reaches P _ _ _ _ 0%Z _ _ (in_zrange_iff 0 dims 0 ltac:(lia)) E)).
  2: { intros i [s2 sd] s' H2 E2. apply bind_ok in E2 as [sb [E2 E3]].
       apply (compute_ext _ _ _ _ _ (f_out s)) in E2; [|exact H2].
       apply bind_ok in E3 as [stp [E3 E4]].
       apply (compute_ext _ _ _ _ _ (f_out s)) in E3; [|exact E2].
       injection E4 as <-. exact E3. }
  2: exact E1.
  intros [[s2 sd] [s' [H2 E2]]]. unfold P in H2. cbn [fst] in H2. cbv beta iota in E2.
  apply bind_ok in E2 as [sb [E2 _]]. unfold c_compute_flux in E2.
  apply bind_ok in E2 as [o [E3 E2]]. cbn [f_out f_left f_right f_temp f_speed] in E3, E2.
  apply (make_zero_ext _ _ _ _ (f_out s)) in E3; [|exact H2].
  refine (_ (fold_reaches (fun s3 => has_ext (f_out s3) (f_out s)) _ _ _ _ d0 _ _
              (in_zrange_iff 0 dims d0 d0_in) E2)).
  2: { intros i s3 s4 H3 E4. apply bind_ok in E4 as [lr [_ E4]]. apply bind_ok in E4 as [r2 [E5 E4]].
       injection E4 as <-. cbn [f_out]. now apply (net_ext _ _ _ _ _ _ _ _ _ H3 E5). }
  2: exact E3.
  intros [s3 [s4 [H3 E4]]]. apply bind_ok in E4 as [lr [_ E4]]. apply bind_ok in E4 as [r2 [E5 _]].
  unfold c_net_flux in E5. apply bind_ok in E5 as [tw [E5 _]].
  destruct (has_ext_parts _ _ H3) as [Hx [Hy Hz]].
  pose proof (Hn 0%Z ltac:(lia)) as N0. pose proof (Hn 1%Z ltac:(lia)) as N1. pose proof (Hn 2%Z ltac:(lia)) as N2.
  pose proof (H2 0%Z) as T0.
  unfold total in N0, N1, N2, T0. cbn [Z.eqb Pos.eqb] in N0, N1, N2, T0.
  assert (G0 : ghost dims g 0 = g) by (unfold ghost; destruct (Z.ltb_spec 0 dims); lia).
  assert (U : forall k, (0 <= unit_ d0 k)%Z) by (intros k; unfold unit_, b2z; destruct (d0 =? k)%Z; lia).
  pose proof (U 0%Z) as U0. pose proof (U 1%Z) as U1. pose proof (U 2%Z) as U2.
  apply for3_reaches in E5.
  - destruct E5 as [t1 [t2 E6]]. apply bind_ok in E6 as [fs [E6 _]]. now apply bad in E6.
  - cbn [Z.eqb Pos.eqb]. rewrite Hz. lia.
  - cbn [Z.eqb Pos.eqb]. rewrite Hy. lia.
  - unfold total. cbn [Z.eqb Pos.eqb]. rewrite Hx, G0. rewrite T0. lia.
Qed.

Lemma system_undefined exchange u s :
  no_throw (exchange u) ->
  (forall k, (0 <= k < 3)%Z -> (2 * ghost dims g k < total (f_out s) k)%Z) ->
  c_system_flux dims g cf rc exchange u s = UB.
Proof.
  intros Hx Hn. pose proof (system_never exchange u s Hn) as A.
  pose proof (system_no_throw exchange u s Hx) as B.
  destruct (c_system_flux dims g cf rc exchange u s) as [q| |]; [now elim (A q)|reflexivity|now elim B].
Qed.
End Undefined.
