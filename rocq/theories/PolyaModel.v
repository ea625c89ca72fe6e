(** Model of /repo/phenum/polyaburnside.py: [polya], the cycle bookkeeping and the coefficient
    extraction.  Numbers that may become floats are modelled by [num]. *)
From Verif Require Import PyBase PhononsModel.
Local Open Scope Z_scope.

(** setup.py:45-49 declares Python 2.7 and 3.x; they differ in the meaning of [/] on two ints. *)
Inductive pyversion := Py2 | Py3.

(** ** Python numbers (non-negative ones; no others occur here) *)

(** An int, or a double of value m*2^e.  Simplification: no overflow to infinity and no subnormals. *)
Inductive num := I (z : Z) | F (m e : Z).

(** Numerator and denominator of the exact value. *)
Definition frac (x : num) : Z * Z :=
  match x with
  | I z => (z, 1)
  | F m e => (m * 2 ^ Z.max e 0, 2 ^ Z.max (- e) 0)
  end.

(** Round to nearest, ties to even, to 53 significant bits: the double nearest to n/d (n >= 0, d > 0). *)
Definition round_half_even (n d : Z) : Z :=
  let q := n / d in
  let r := n mod d in
  if 2 * r <? d then q
  else if d <? 2 * r then q + 1
  else if Z.even q then q else q + 1.
Definition exponent (n d : Z) : Z :=
  let e := Z.log2 n - Z.log2 d - 52 in
  if n * 2 ^ Z.max (- e) 0 <? d * 2 ^ Z.max e 0 * 2 ^ 52 then e - 1 else e.
Definition round (n d : Z) : num :=
  if n =? 0 then F 0 0
  else let e := exponent n d in
       F (round_half_even (n * 2 ^ Z.max (- e) 0) (d * 2 ^ Z.max e 0)) e.

(** [float(x)]. *)
Definition to_float (x : num) : num :=
  match x with I z => round z 1 | F m e => F m e end.
(** [x * y], [x + y], [x / y] and [int(x)]. *)
Definition nmul (x y : num) : num :=
  match x, y with
  | I a, I b => I (a * b)
  | _, _ => let '(n1, d1) := frac (to_float x) in
            let '(n2, d2) := frac (to_float y) in round (n1 * n2) (d1 * d2)
  end.
Definition nadd (x y : num) : num :=
  match x, y with
  | I a, I b => I (a + b)
  | _, _ => let '(n1, d1) := frac (to_float x) in
            let '(n2, d2) := frac (to_float y) in round (n1 * d2 + n2 * d1) (d1 * d2)
  end.
(** Division by a positive number.  Python 3 rounds the quotient of two ints correctly. *)
Definition ndiv (v : pyversion) (x y : num) : num :=
  match x, y with
  | I a, I b => match v with Py2 => I (a / b) | Py3 => round a b end
  | _, _ => let '(n1, d1) := frac (to_float x) in
            let '(n2, d2) := frac (to_float y) in round (n1 * d2) (d1 * n2)
  end.
Definition nint (x : num) : Z := let '(n, d) := frac x in n / d.

Section Polya.
  Variable v : pyversion.

  (** polyaburnside.py:322-347 [Multinomial.nchoosek]; the loop body is [t = t*i/(n-i+1)]. *)
  Definition nchoosek (n k : Z) : num :=
    if negb ((-1 <? k) && (k <? n + 1)) then I 0
    else if (k =? 0) && (n =? 0) then I 1
    else let body t i := ndiv v (nmul t (I i)) (I (n - i + 1)) in
         if k <? n - k then fold_left body (range_down n (n - k)) (I 1)
         else fold_left body (range_down n k) (I 1).

  (** polyaburnside.py:230-272: a multinomial [(x_1^power + ...)^exponent] whose arrowed variables have the
      coefficient [coeff]. *)
  Record multinomial := { m_power : Z; m_coeff : Z; m_arrowings : list bool; m_exponent : Z }.

  (** polyaburnside.py:267 [powersum] and 270 [possible_powers = range(0, power*exponent+1, power)]. *)
  Definition powersum (m : multinomial) : Z := m_power m * m_exponent m.
  Definition possible_powers (m : multinomial) : list Z :=
    map (fun j => m_power m * Z.of_nat j) (seq 0 (Z.to_nat ((powersum m + m_power m) / m_power m))).

  (** polyaburnside.py:280-290 [normed_seq]. *)
  Definition normed_seq (m : multinomial) (s : list Z) : list Z :=
    map (fun a => nint (ndiv v (I a) (I (m_power m)))) s.

  (** polyaburnside.py:292-319 [nchoosekm]. *)
  Definition nchoosekm (m : multinomial) (s : list Z) : num :=
    if negb (forallb (fun a => a mod m_power m =? 0) s) then I 0
    else
      let ns := normed_seq m s in
      let prod := fold_left (fun prod i =>
                    let nsum := sum_Z (firstn (i + 1) ns) in
                    nmul prod (nchoosek nsum (nth i ns 0)))
                  (seq 0 (length s)) (I 1) in
      let pcoeff := fold_left (fun pc '(i, arrow) =>
                      if arrow : bool then pc * m_coeff m ^ nth i ns 0 else pc)
                    (combine (seq 0 (length (m_arrowings m))) (m_arrowings m)) 1 in
      nmul prod (I pcoeff).

  (** polyaburnside.py:25-104 [Sequence.__init__] and [expand]: building the tree of kids and expanding it
      are fused into one recursion over the remaining targets ([targets[i:]]).  In [expand] a childless node
      at depth < varcount-1 is padded with zeros. *)
  Fixpoint sequence_expand (rest : list Z) (root used : Z) (possibles : list Z) (psum : Z)
    : list (list Z) :=
    match rest with
    | [] => [[root]]
    | t :: rest' =>
        let kids := filter (fun p => (0 <=? p - root) && (p - root <=? t) &&
                                     (Z.abs (p - root) <=? psum - used) &&
                                     (Z.abs (p - used) mod nth 1 possibles 0 =? 0)) possibles in
        match kids with
        | [] => [root :: repeat 0 (length rest)]
        | _ => flat_map (fun p => map (cons root)
                                      (sequence_expand rest' (p - root) (used + (p - root)) possibles psum))
                        kids
        end
    end.

  (** [itertools.product] of the lists [ls]. *)
  Fixpoint lproduct {A} (ls : list (list A)) : list (list A) :=
    match ls with
    | [] => [[]]
    | l :: ls' => flat_map (fun a => map (cons a) (lproduct ls')) l
    end.

  (** The list of the position-wise sums (219) for sequences of the same length. *)
  Fixpoint zip_sum (ss : list (list Z)) : list Z :=
    match ss with
    | [] => []
    | [s] => s
    | s :: ss' => map (fun '(a, b) => a + b) (combine s (zip_sum ss'))
    end.

  (** [reduce(mul, l)]; TypeError (never reached: no product without multinomials) modelled as 1. *)
  Definition reduce_mul (l : list num) : num :=
    match l with [] => I 1 | x :: l' => fold_left nmul l' x end.

  (** polyaburnside.py:200-223 [Product._sum_sequences]. *)
  Definition sum_sequences (ms : list multinomial) (targets : list Z) (mnseq : list (list (list Z))) : num :=
    fold_left (fun coeffs sq =>
                 if zlist_eqb (zip_sum sq) targets then
                   nadd coeffs (reduce_mul (map (fun '(m, s) => nchoosekm m s) (combine ms sq)))
                 else coeffs)
              (lproduct mnseq) (I 0).

  (** polyaburnside.py:162-198 [Product.coeff].  [self.coefficient] is a positive int. *)
  Definition coeff (coefficient : Z) (targets : list Z) (ms : list multinomial) : num :=
    match ms with
    | [m] => if forallb (fun t => 0 <? m_power m - t) targets then I 0
             else nmul (nchoosekm m targets) (I coefficient)
    | _ =>
        let possibles := map possible_powers ms in
        let seq0 := filter (fun s => sum_Z s =? nth 0 targets 0) (lproduct possibles) in
        let coeffs := fold_left (fun coeffs sq =>
            let mnseq := map (fun '(r, m) => sequence_expand (tl targets) r r (possible_powers m) (powersum m))
                             (combine sq ms) in
            nadd coeffs (sum_sequences ms targets mnseq)) seq0 (I 0) in
        I (nint coeffs * coefficient)
    end.

  (** polyaburnside.py:443-450, 456-470: follow the permutation from [cursor] until it is back at [vindex],
      marking what is visited and counting. *)
  Fixpoint cycle_walk (fuel : nat) (perm : list nat) (vindex cursor : nat) (visited : list nat) (len : nat)
    : res (list nat * nat) :=
    if (cursor =? vindex)%nat then Ok (visited, len)
    else match fuel with
         | O => Err OutOfFuel
         | S f => do visited' <- set visited cursor 1%nat;
                  do cursor' <- get perm cursor;
                  cycle_walk f perm vindex cursor' visited' (S len)
         end.

  (** polyaburnside.py:440-451 and 453-470: [while 0 in visited: vindex = visited.index(0) ...]. *)
  Fixpoint cycle_lens (fuel : nat) (perm visited acc : list nat) : res (list nat) :=
    match py_index visited 0 with
    | Err _ => Ok acc
    | Ok vindex =>
        match fuel with
        | O => Err OutOfFuel
        | S f => do visited1 <- set visited vindex 1%nat;
                 do cursor <- get perm vindex;
                 do (visited2, len) <- cycle_walk (length perm) perm vindex cursor visited1 1;
                 cycle_lens f perm visited2 (acc ++ [len])
        end
    end.
  Definition cycle_lengths (perm : list nat) : res (list nat) :=
    cycle_lens (length perm) perm (repeat 0%nat (length perm)) [].

  (** A dict with insertion order. *)
  Fixpoint dict_incr (d : list ((nat * nat) * nat)) (key : nat * nat) : list ((nat * nat) * nat) :=
    match d with
    | [] => [(key, 1%nat)]
    | (k, c) :: d' => if ((fst k =? fst key) && (snd k =? snd key))%nat then (k, S c) :: d'
                      else (k, c) :: dict_incr d' key
    end.

  (** polyaburnside.py:479: [coef = sum([l for l in arrow_cycle_len if powers%l == 0])]. *)
  Definition arrow_coef (arrow_cycle_len : list nat) (powers : nat) : nat :=
    sum_nat (filter (fun l => (powers mod l =? 0)%nat) arrow_cycle_len).

  (** polyaburnside.py:425-485, one operation.  The dict is filled after all cycles are known instead of while
      walking; nothing else reads it. *)
  Definition polynomials (o : op) : res (list ((nat * nat) * nat)) :=
    do alens <- cycle_lengths (snd o);
    do plens <- cycle_lengths (fst o);
    Ok (fold_left (fun d p => dict_incr d (p, arrow_coef alens p)) plens []).

  (** [0 in l]; [[j-1 for j in l]]. *)
  Definition has_zero (l : list nat) : bool := existsb (Nat.eqb 0) l.
  Definition shift (l : list nat) : list nat := map Nat.pred l.
  Definition zero_based (l : list nat) : list nat := if has_zero l then l else shift l.

  (** polyaburnside.py:404-487 [_group_to_cyclic] with [limit=None].  Lines 417-418 shift the whole group when
      its first site permutation has no 0. *)
  Definition group_to_cyclic (group : list op) : res (list (list ((nat * nat) * nat))) :=
    do g0 <- get group 0;
    let group := if has_zero (fst g0) then group else map (fun o => (shift (fst o), shift (snd o))) group in
    rmap polynomials group.

  (** polyaburnside.py:225-228, 274-278: the printed form of a product is used as a dictionary key.  It is
      modelled by the tokens printed: for every multinomial, sorted by (exponent, power) in decreasing order,
      the list of (coefficient or 1, power), and the exponent.  (The coefficient of the product is 1 whenever
      the key is computed.) *)
  Definition key := list (list (Z * Z) * Z).
  Definition m_key (m : multinomial) : list (Z * Z) * Z :=
    (map (fun a : bool => (if a then m_coeff m else 1, m_power m)) (m_arrowings m), m_exponent m).
  Definition m_ge (a b : multinomial) : bool :=
    (m_exponent b <? m_exponent a) || ((m_exponent b =? m_exponent a) && (m_power b <=? m_power a)).
  Fixpoint m_insert (m : multinomial) (l : list multinomial) : list multinomial :=
    match l with
    | [] => [m]
    | x :: l' => if m_ge m x then m :: l else x :: m_insert m l'
    end.
  Definition m_sort (l : list multinomial) : list multinomial := fold_right m_insert [] l.
  Definition product_key (ms : list multinomial) : key := map m_key (m_sort ms).
  Definition zz_eqb (a b : Z * Z) : bool := (fst a =? fst b) && (snd a =? snd b).
  Definition key_eqb : key -> key -> bool :=
    list_eqb (fun a b => list_eqb zz_eqb (fst a) (fst b) && (snd a =? snd b)).

  (** polyaburnside.py:532-536: one entry per printed form, its coefficient counting the operations. *)
  Fixpoint polyndict_add (d : list (key * (Z * list multinomial))) (ms : list multinomial)
    : list (key * (Z * list multinomial)) :=
    match d with
    | [] => [(product_key ms, (1, ms))]
    | (k, (c, ms')) :: d' => if key_eqb k (product_key ms) then (k, (c + 1, ms')) :: d'
                             else (k, (c, ms')) :: polyndict_add d' ms
    end.

  (** polyaburnside.py:528-530. *)
  Definition multinomials (arrowings : list bool) (d : list ((nat * nat) * nat)) : list multinomial :=
    map (fun '((e, c), n) => {| m_power := Z.of_nat e; m_coeff := Z.of_nat c; m_arrowings := arrowings;
                                m_exponent := Z.of_nat n |}) d.

  (** polyaburnside.py:509-512: [arrowings] given as an int ([isinstance(arrowings, int)]) marks the last
      colours; [None] is 0. *)
  Definition arrow_flags (k arrowings : nat) : list bool :=
    repeat false (k - arrowings) ++ repeat true arrowings.

  (** polyaburnside.py:489-547 [polya].  Result: the number and the group as the call leaves it (lines 520-522
      overwrite the caller's lists). *)
  Definition polya (concentrations : list nat) (group : list op) (arrowings : nat) : res (Z * list op) :=
    let flags := arrow_flags (length concentrations) arrowings in
    do g0 <- get group 0;
    if negb (sum_nat concentrations =? length (fst g0))%nat then Err ValueError
    else
      let group' := map (fun o => (zero_based (fst o), zero_based (snd o))) group in
      do cyclic <- group_to_cyclic group';
      let dict := fold_left (fun d p => polyndict_add d (multinomials flags p)) cyclic [] in
      let targets := map Z.of_nat concentrations in
      let rad := fold_left nadd (map (fun '(_, (c, ms)) => coeff c targets ms) dict) (I 0) in
      Ok (nint (ndiv v rad (to_float (I (Z.of_nat (length group))))), group').
End Polya.
