(** The comparison of results in the tests, utils/testing.cc.  Printing is left out. *)
From Verif Require Export Tactics Spec.
Open Scope Z_scope.

Section M.
Context {A : Arith}.
(** utils/testing.cc:15-17 *)
Definition equal_reals (a b : T) : bool := (fabs (a .- b) .< lit 1 3) || (fabs (#1 .- fabs (a ./ b)) .< lit 1 3).
(** utils/testing.cc:19-27; after a difference nothing more is read *)
Definition equal_arrays (a b : list T) (size_a size_b : Z) : res bool :=
  if negb (size_a =? size_b) then Ok false else
  for_ 0 size_a (fun i (same : bool) => if same then let* x := rd a i in let* y := rd b i in Ok (equal_reals x y) else Ok false) true.
(** utils/testing.cc:39-73; [outputs_n] is info->outputs *)
Definition compare_answers (outputs_n : Z) (answers outputs : list (list T)) (answer_size output_size : Z) : res Z :=
  for_ 0 outputs_n (fun i failures =>
    let* answer := rd answers i in let* output := rd outputs i in
    let maxsz := Z.max answer_size output_size in
    let* any_bad := for_ 0 maxsz (fun j any_bad =>
      let* good := if (j <? answer_size) && (j <? output_size) then let* x := rd answer j in let* y := rd output j in Ok (equal_reals x y) else Ok false in
      Ok (if good : bool then any_bad else any_bad + 1)) 0 in
    Ok (if any_bad =? 0 then failures else failures + 1)) 0.
End M.
