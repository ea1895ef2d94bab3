(** One call of HBR (linear/HBR.py:26-55, vector right-hand side) as PPS makes it:
    [inv] is [np.linalg.inv], called on the midpoint matrix (line 32) and on the
    comparison matrix (line 39); [None]: one of the calls raised. *)
From Coq Require Import Reals List Arith.
From Verif Require Import Exact Estim.
Open Scope R_scope.

Definition hbr_call (inv : mat -> option mat) (k : nat) (A : imat) (b : ivec) : option ivec :=
  match inv (mids A) with
  | None => None
  | Some C =>
      match inv (r_compmat (rimm (S k) C A)) with
      | None => None
      | Some B => match hbr k A b C B with Some l => Some (fun i => nth i l (mkr 0 0)) | None => None end
      end
  end.
