import sys; sys.path.insert(0,'/root')
from mkpa import thm
o=[]
def w(x): o.append(x)
def hand(name,st,lemma): w(f"Theorem {name} : {st}.\nProof. exact {lemma}. Qed.\nPrint Assumptions {name}.\n")
w('''(** Boundary intervals, orthant systems and change of variables over exact
    reals: C46, C47, C62. *)
From Coq Require Import Reals ZArith List Bool Arith Lia Lra.
From Verif Require Import Exact Recog SpecExact ExactProofs Boundary SpecBoundary BoundaryProofs BoundaryMore.
Import ListNotations.
Open Scope R_scope.

(** ** C46 *)''')
hand('C46_united','forall m n A sg, proper_mat m n A -> forall b x, proper_vec m b ->\n  (satisfies (2 * m + n) n (neg_mat (wl_A true m sg A)) (neg_vec (wl_b true m b)) x <-> in_orthant n sg x /\\ united m n A b x)','orthant_united')
hand('C46_tolerable','forall m n A sg, proper_mat m n A -> forall b x,\n  (satisfies (2 * m + n) n (neg_mat (wl_A false m sg A)) (neg_vec (wl_b false m b)) x <-> in_orthant n sg x /\\ tolerable m n A b x)','orthant_tolerable')
w('(** In space the right-hand sides are shifted by 1e-15: the set is exact up to that. *)')
for k,extra in (('united',' -> proper_vec m b'),('tolerable','')):
    u='true' if k=='united' else 'false'
    hand(f'C46_{k}_space',f'''forall m n A sg, proper_mat m n A -> forall d b x, 0 <= d{extra} ->
  let S := satisfies (2 * m + n) n (neg_mat (wl_A {u} m sg A)) (neg_vec (wl_b3 d {u} m b)) x in
  (S -> in_orthant n sg x /\\ {k} m n A (widen d b) x) /\\ (in_orthant n sg x /\\ {k} m n A (widen (- d) b) x -> S)''',f'orthant_{k}_3d')
w(thm('C46_four_orthants_united','orthants_cover_united'))
w(thm('C46_four_orthants_tolerable','orthants_cover_tolerable'))
w(thm('C46_vertices','r2_vertices'))
w('(** Equations with zero coefficients are dropped, satisfiable or not. *)')
w(thm('C46_zero_equation_refuted','r2_zero_row_refuted'))
w('''Definition c46_A : imat := fun i j => if Nat.eqb i j then mkr 2 4 else mkr (-2) 1.
Definition c46_b : ivec := fun _ => mkr (-2) 2.
Example C46_case : proper_mat 2 2 c46_A /\\ proper_vec 2 c46_b /\\ united 2 2 c46_A c46_b (vec2 (1 / 2, - 1 / 2)) /\\ ~ united 2 2 c46_A c46_b (vec2 (5, 0)) /\\
  forall sg r, In sg orthants2 -> In r (wl_rows true 2 sg c46_A c46_b) -> zero_row r = false.
Proof.
  assert (PA : proper_mat 2 2 c46_A) by (intros i j _ _; unfold c46_A, proper; destruct (Nat.eqb i j); simpl; lra).
  split; [exact PA|]. split; [intros i _; unfold proper; simpl; lra|]. split; [|split].
  - exists (fun i j => if Nat.eqb i j then 2 else 0), (fun i => match i with O => 1 | _ => -1 end). split; [|split].
    + intros [|[|i]] [|[|j]] Hi Hj; try lia; unfold c46_A, inI; simpl; lra.
    + intros [|[|i]] Hi; try lia; unfold c46_b, inI; simpl; lra.
    + intros [|[|i]] Hi; try lia; unfold times; simpl; lra.
  - intros (M & v & HM & Hv & S). assert (H := HM O O ltac:(lia) ltac:(lia)). assert (V := Hv O ltac:(lia)). rewrite <- (S O ltac:(lia)) in V.
    unfold inI, c46_A, c46_b, times in *. simpl in *. lra.
  - assert (Z : forall p q c, 1 <= Rabs p \\/ 1 <= Rabs q -> zero_row (mkrow p q c) = false).
    { intros p q c [L|L]; unfold zero_row, tiny; simpl; repeat destruct Rle_dec; simpl; auto; lra. }
    assert (B : forall t, 1 <= t \\/ t <= -1 -> 1 <= Rabs t). { intros t [Ht|Ht]; [rewrite Rabs_right by lra | rewrite Rabs_left by lra]; lra. }
    intros sg r Hs Hr. unfold wl_rows in Hr. apply in_map_iff in Hr. destruct Hr as (i & <- & Hi). apply in_seq in Hi. simpl in Hi. apply Z.
    destruct Hs as [<-|[<-|[<-|[<-|[]]]]]; do 6 (destruct i as [|i]; [unfold neg_mat, wl_A, wl_tmp, c46_A; simpl; first [left; apply B; lra | right; apply B; lra]|]); lia.
Qed.

(** ** C47 *)''')
w(thm('C47_one_segment_per_face','boundary_indices'))
w('(** Exactly, without the 1e-301 added to the direction; and with it. *)')
w(thm('C47_segment_is_face','boundary_segment_exact'))
w(thm('C47_segment_perturbed','boundary_segment'))
w(thm('C47_infinite_ends','boundary_ends'))
w(thm('C47_all_vertices','boundary_vertices'))
w(thm('C47_empty_answer','boundary_empty'))
w(thm('C47_lineqs_vertices_feasible','lineqs_sound'))
w(thm('C47_lineqs_empty_answer','lineqs_empty'))
w('(** A contradictory inequality with zero coefficients is dropped. *)')
w(thm('C47_lineqs_zero_row_refuted','lineqs_zero_row_refuted'))
w('''Definition c47_rows : list row := [mkrow 1 0 0; mkrow 0 1 0; mkrow (-1) (-1) (-2)].
Example C47_case : (forall r, In r c47_rows -> nonzero r) /\\ in_set c47_rows (2, 0) /\\ face c47_rows 2 (1, 1) /\\ ~ parallel (mkrow 0 1 0) (mkrow (-1) (-1) (-2)) /\\
  fst (clear_zero_rows (fun x => x) c47_rows) = c47_rows.
Proof.
  split; [intros r [<-|[<-|[<-|[]]]]; unfold nonzero; simpl; lra|]. split; [intros r [<-|[<-|[<-|[]]]]; unfold holds; simpl; lra|]. split; [|split].
  - split; [intros r [<-|[<-|[<-|[]]]]; unfold holds; simpl; lra|]. eexists. split; [reflexivity|]. unfold tight; simpl; lra.
  - unfold parallel; simpl; lra.
  - unfold clear_zero_rows, c47_rows, around_row, zero_row; cbn [map a0 a1 rhs fst filter]. rewrite !(tiny_one 1), !(tiny_one (-1)) by auto. rewrite !Bool.andb_false_r. reflexivity.
Qed.

(** ** C62 *)''')
w(thm('C62_plane_parametrized','change_variable'))
w('''Example C62_case : (1, 2, 2) <> (0, 0, 0) /\\ dot3 (1, 2, 2) (1, 2, 2) = 9 /\\ dot3 (1, 2, 2) (9, 0, 0) = 9.
Proof. split; [intro H; injection H; intros; lra|]. unfold dot3, x1, x2, x3; simpl. split; lra. Qed.''')
open('/verif/rocq/theories/Props_Boundary.v','w').write('\n'.join(o))
