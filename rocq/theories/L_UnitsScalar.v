(** The Burgers and the cubic equation with another unit of time. *)
From Coq Require Import ZArith Reals List Bool Lia Lra String.
From Verif Require Import M_Base M_Vec M_Flux M_Combined M_Scalar M_Recon M_Config
  S_Symmetry S_Units L_SymScheme L_EmbedRecon L_UnitsEuler.
Import ListNotations.
Open Scope R_scope.

(** ** Combined fluxes *)
Section Combined.
Context {V W : cvars}.
Variables (tau : V -> W) (k : R).
Hypothesis Hk : 0 < k.
Hypothesis tau_add : forall a c, tau (vadd a c) = vadd (tau a) (tau c).
Hypothesis tau_scal : forall x a, tau (vscal x a) = vscal x (tau a).
Variables (f : Z -> V -> V -> V * R) (f' : Z -> W -> W -> W * R) (d : Z).
Hypothesis H : carries tau (faster k (Flux2 f)) d (Flux2 f') d.
Lemma max0_k x : Rmax 0 (k * x) = k * Rmax 0 x.
Proof. rewrite <- (Rmax_kk k Hk). f_equal. ring. Qed.
Lemma faster4 : carries tau (faster k (combined4 f)) d (combined4 f') d.
Proof.
  cbn in H. split; [reflexivity|]. intros us Hl.
  destruct us as [|a [|b [|c [|e [|]]]]]; try discriminate. cbn [map fst snd].
  rewrite !H. cbn [fst snd]. f_equal.
  - rewrite ?tau_scal, ?tau_add, ?tau_scal, ?tau_add, ?tau_scal. apply comp_ext; intros i.
    rewrite ?comp_scal, ?comp_add, ?comp_scal, ?comp_add, ?comp_scal. ring.
  - now rewrite max0_k, !(Rmax_kk k Hk).
Qed.
Lemma faster6 : carries tau (faster k (combined6 f)) d (combined6 f') d.
Proof.
  cbn in H. split; [reflexivity|]. intros us Hl.
  destruct us as [|a [|b [|c [|e [|g [|h [|]]]]]]]; try discriminate. cbn [map fst snd].
  rewrite !H. cbn [fst snd]. f_equal.
  - rewrite ?tau_scal, ?tau_add, ?tau_scal, ?tau_add, ?tau_scal, ?tau_add, ?tau_scal. apply comp_ext; intros i.
    rewrite ?comp_scal, ?comp_add, ?comp_scal, ?comp_add, ?comp_scal, ?comp_add. ring.
  - now rewrite max0_k, !(Rmax_kk k Hk).
Qed.
End Combined.

(** ** Fluxes *)
Section Scalar.
Variable k : R.
Hypothesis Hk : 0 < k.
Notation gain := (gain k).
Lemma max_0k x : Rmax (k * x) 0 = k * Rmax x 0.
Proof. rewrite <- (Rmax_kk k Hk). f_equal. ring. Qed.
Lemma min_0k x : Rmin (k * x) 0 = k * Rmin x 0.
Proof. rewrite <- (Rmin_k k Hk). f_equal. ring. Qed.
Lemma gain_pos e : 0 < gain e.
Proof. destruct e; cbn; try lra. now apply Rmult_lt_0_compat. Qed.
Lemma point_gain e u : e = Burgers \/ e = Cubic -> point_flux e (k * u) = k * (gain e * point_flux e u).
Proof. intros [->| ->]; cbn; field. Qed.
Lemma eigen_gain e u : e = Burgers \/ e = Cubic -> eigenvalue e (k * u) = gain e * eigenvalue e u.
Proof. intros [->| ->]; cbn; ring. Qed.
Lemma speed_gain e u : e = Burgers \/ e = Cubic -> wave_speed e (k * u) = gain e * wave_speed e u.
Proof.
  intros [->| ->]; cbn; [now apply Rabs_k|]. replace (k * u * (k * u)) with (k * k * (u * u)) by ring.
  apply (Rabs_k (k * k)). now apply Rmult_lt_0_compat.
Qed.
Lemma value_gain e n l r : unbounded e n -> flux_value e n (k * l) (k * r) = k * (gain e * flux_value e n l r).
Proof.
  intros U. assert (E : e = Burgers \/ e = Cubic) by (destruct e; auto; destruct n; destruct U).
  pose proof (point_gain e) as P. pose proof (gain_pos e) as G.
  destruct n; unfold flux_value; cbv zeta; try (destruct e; destruct U; fail).
  - rewrite !P by exact E. field.
  - rewrite !P, !eigen_gain by exact E. rewrite !(Rabs_k (gain e) G), (Rmax_kk (gain e) G). field.
  - rewrite max_0k, min_0k, !P by exact E. rewrite !(Rmax_kk k Hk), !(Rmax_kk (gain e) G). reflexivity.
  - rewrite max_0k, min_0k, !P by exact E.
    destruct (Rge_dec (k * l) (- (k * r))) as [A|A], (Rge_dec l (- r)) as [B|B]; try reflexivity; exfalso.
    + apply B. apply Rle_ge. apply (Rmult_le_reg_l k); lra.
    + apply A. apply Rle_ge. replace (- (k * r)) with (k * - r) by ring. apply Rmult_le_compat_l; lra.
  - destruct e; try destruct U. rewrite !P by exact E. cbn [gain].
    assert (Q : (if Req_EM_T (k * l) (k * r) then k * l * (k * l)
      else (k * (k * k * point_flux Cubic l) - k * (k * k * point_flux Cubic r)) / (k * l - k * r))
      = k * k * (if Req_EM_T l r then l * l else (point_flux Cubic l - point_flux Cubic r) / (l - r))).
    { destruct (Req_EM_T (k * l) (k * r)) as [A|A], (Req_EM_T l r) as [B|B].
      - ring.
      - exfalso. apply B. apply (Rmult_eq_reg_l k); lra.
      - exfalso. apply A. now rewrite B.
      - field. split; lra. }
    rewrite Q. rewrite (ge0_k (k * k) (Rmult_lt_0_compat k k Hk Hk)). destruct (Rge_dec _ _); reflexivity.
Qed.
Notation bigger := (bigger k).
Lemma bigger_flux2 e n d : unbounded e n ->
  carries bigger (faster (gain e) (Flux2 (scalar_flux e n))) d (Flux2 (scalar_flux e n)) d.
Proof.
  intros U l r. assert (E : e = Burgers \/ e = Cubic) by (destruct e; auto; destruct n; destruct U).
  unfold scalar_flux, bigger, flux_speed. cbn [fst snd]. rewrite !speed_gain by exact E.
  rewrite (Rmax_kk (gain e) (gain_pos e)). apply (f_equal2 pair); [|reflexivity]. now apply value_gain.
Qed.
Lemma bigger_add (a c : scalar_cvars) : bigger (vadd a c) = vadd (bigger a) (bigger c).
Proof. change (k * (a + c) = k * a + k * c). ring. Qed.
Lemma bigger_scal x (a : scalar_cvars) : bigger (vscal x a) = vscal x (bigger a).
Proof. change (k * (x * a) = x * (k * a)). ring. Qed.
Lemma bigger_flux e n d : unbounded e (plain_flux n) -> carries bigger (faster (gain e) (the_flux e n)) d (the_flux e n) d.
Proof.
  intros U. pose proof bigger_add as A. pose proof bigger_scal as B.
  destruct n; cbn [the_flux plain_flux] in *; [|apply faster4|apply faster6]; auto using bigger_flux2, gain_pos.
Qed.
End Scalar.
