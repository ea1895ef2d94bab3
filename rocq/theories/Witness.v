(** Helpers to evaluate concrete cases: doubles by their computed bits. *)
From Coq Require Import ZArith Reals List Bool Lia Lra Psatz.
From Coq Require Import Floats.SpecFloat.
From Flocq Require Import Core IEEE754.BinarySingleNaN.
From Verif Require Import Base PyNum Kernel Spec XReal.
Open Scope R_scope.

Definition xsf (s : spec_float) : xreal :=
  match s with
  | S754_nan => XNan
  | S754_infinity true => XNInf
  | S754_infinity false => XPInf
  | S754_zero _ => XFin 0
  | S754_finite s m e => XFin (F2R (Float radix2 (cond_Zopp s (Zpos m)) e))
  end.
Lemma xflt_sf f : xflt f = xsf (B2SF f).
Proof. destruct f as [s|[|]| |s m e H]; reflexivity. Qed.

(** Computable view of a Python number and of the outcome of an interval
    computation. *)
Definition view_num (x : pynum) : Z + spec_float := match x with PInt z => inl z | PFlt f => inr (B2SF f) end.
Definition view_itv (r : res itv) : option (kind * (Z + spec_float) * (Z + spec_float)) :=
  match r with Ok X => Some (kd X, view_num (lo X), view_num (hi X)) | Err _ => None end.
Definition xview (v : Z + spec_float) : xreal := match v with inl z => XFin (IZR z) | inr s => xsf s end.
Lemma xval_view x : xval x = xview (view_num x).
Proof. destruct x; simpl; [reflexivity | apply xflt_sf]. Qed.

Lemma view_returns (c : M itv) m k l h : view_itv (outcome c m) = Some (k, l, h) ->
  exists Z, returns c m Z /\ kd Z = k /\ xval (lo Z) = xview l /\ xval (hi Z) = xview h.
Proof.
  unfold returns. destruct (outcome c m) as [Z|e]; simpl; [|discriminate]. intro H; inversion H; subst.
  exists Z. rewrite !xval_view. auto.
Qed.

Lemma F2R_pos_exp m e : (0 <= e)%Z -> F2R (Float radix2 m e) = IZR (m * 2 ^ e).
Proof. intro. unfold F2R. simpl. rewrite mult_IZR. f_equal. symmetry. apply (IZR_Zpower radix2 e H). Qed.
Lemma F2R_neg_exp m e : (e < 0)%Z -> F2R (Float radix2 m e) = IZR m / IZR (2 ^ (- e)).
Proof.
  intro. unfold F2R. cbn [Defs.Fnum Defs.Fexp]. unfold Rdiv. f_equal.
  replace e with (- (- e))%Z at 1 by lia. rewrite bpow_opp. f_equal.
  symmetry. apply (IZR_Zpower radix2 (- e)). lia.
Qed.

(** A literal [m*2^e] that is representable has exactly that value. *)
Lemma fl_val m e : (match B2SF (fl m e) with
                   | S754_finite s p q => F2R (Float radix2 (cond_Zopp s (Zpos p)) q)
                   | _ => 0 end) = B2R (fl m e).
Proof. rewrite <- SF2R_B2SF. destruct (B2SF (fl m e)); reflexivity. Qed.
Lemma B2R_sf (f : flt) s m e : B2SF f = S754_finite s m e -> B2R f = F2R (Float radix2 (cond_Zopp s (Zpos m)) e).
Proof. intro H. rewrite <- SF2R_B2SF, H. reflexivity. Qed.
Ltac feval := rewrite ?F2R_pos_exp by (vm_compute; congruence); rewrite ?F2R_neg_exp by (vm_compute; congruence);
  cbv [cond_Zopp Z.opp Z.mul Z.pow Z.pow_pos Pos.iter Pos.mul Pos.add Pos.succ].
