(** Property theorems C02 (see /verif/properties.jsonl). *)
From Coq Require Import Factorial.
From Verif Require Import PyBase Spec ListFacts NumericsModel NumericsProofs MultiProofs.
Local Open Scope Z_scope.

(** ** C02 *)
(** The number of arrangements is the quotient of factorials. *)
Theorem C02_labelings_factorials : forall c : list nat,
  Z.of_nat (length (labelings c)) * prod_Z (map (fun k => Z.of_nat (fact k)) c) =
  Z.of_nat (fact (fold_right Nat.add 0%nat c)).
Proof. intros c. rewrite labelings_prod. apply coefficients_fact. reflexivity. Qed.
(** [factorial] is the factorial. *)
Theorem C02_factorial : forall n : nat, factorial (Z.of_nat n) = Z.of_nat (fact n).
Proof. exact factorial_fact. Qed.
(** [multinomial] is exact as long as (number of atoms) * (number of arrangements) fits in an int64.
    Missing: the property claims it without that bound, which is false ([C02_overflow_refuted]). *)
Theorem C02_multinomial_partial : forall c : list nat, c <> [] ->
  Z.of_nat (fold_right Nat.add 0%nat c) * Z.of_nat (length (labelings c)) < 2 ^ 63 ->
  multinomial (map Z.of_nat c) = Ok (Z.of_nat (length (labelings c))).
Proof. exact multinomial_int64. Qed.
(** In unbounded arithmetic the formula of the code is exact for every list. *)
Theorem C02_formula_exact : forall c : list nat,
  multinomial_exact (map Z.of_nat c) = Z.of_nat (length (labelings c)).
Proof. exact multinomial_exact_counts. Qed.
(** Two species with 34 atoms each: the code's answer is not the number of arrangements. *)
Theorem C02_overflow_refuted :
  exists c v, multinomial (map Z.of_nat c) = Ok v /\ v <> Z.of_nat (length (labelings c)).
Proof.
  exists [34; 34]%nat, (match multinomial [34; 34] with Ok v => v | Err _ => 0 end).
  split; [vm_compute; reflexivity|]. rewrite <- multinomial_exact_counts. vm_compute. discriminate.
Qed.
Example C02_example :
  [4; 3; 5]%nat <> [] /\ multinomial (map Z.of_nat [4; 3; 5]%nat) = Ok 27720 /\ 12 * 27720 < 2 ^ 63 /\
  Z.of_nat (length (labelings [2; 1; 2]%nat)) = 30.
Proof. split; [discriminate|]. vm_compute. auto. Qed.

Print Assumptions C02_labelings_factorials.
Print Assumptions C02_factorial.
Print Assumptions C02_multinomial_partial.
Print Assumptions C02_formula_exact.
Print Assumptions C02_overflow_refuted.
