(** Model of the list-combinatorial part of /repo/phenum/grouptheory.py. *)
From Verif Require Import PyBase PhononsModel.

(** [c not in groupi] on operations. *)
Definition op_eqb (a b : op) : bool := nlist_eqb (fst a) (fst b) && nlist_eqb (snd a) (snd b).
Definition op_in (a : op) (l : list op) : bool := existsb (op_eqb a) l.
Definition add_new (l : list op) (a : op) : list op := if op_in a l then l else l ++ [a].

(** [[q[p[l]] for l in range(len(p))]]; IndexError when an entry of [p] is not an index of [q]. *)
Definition compose (p q : list nat) : res (list nat) := rmap (fun l => get q l) p.

(** grouptheory.py:766-790 [a_group]. *)
Definition a_group (trans : list (list nat)) (rots : list op) : res (list op) :=
  rfold (fun groupi i =>
           rfold (fun groupi j => do c <- compose i (fst j); Ok (add_new groupi (c, snd j)))
                 rots groupi)
        trans [].

(** [j] after [i] on both components: [[j[0][i[0][l]]...], [j[1][i[1][l]]...]]
    (grouptheory.py:848-852, 859-863, 870-872, 891-894). *)
Definition op_apply (i j : op) : res op :=
  do t <- compose (fst i) (fst j);
  do r <- compose (snd i) (snd j);
  Ok (t, r).

(** grouptheory.py:820-907 [_group] and polyaburnside.py:349-402 [group] are the same two loops, over pairs of
    permutations and over single permutations; they differ in which generators the first pass combines ([sel]). *)
Section Closure.
Context {X : Type} (eqb : X -> X -> bool) (app : X -> X -> res X).
Definition cl_in (a : X) (l : list X) : bool := existsb (eqb a) l.
(** [if c not in groupi: groupi.append(c)]. *)
Definition cl_add (l : list X) (a : X) : list X := if cl_in a l then l else l ++ [a].

(** grouptheory.py:869-877, polyaburnside.py:388-389: [while d != c]. *)
Fixpoint cl_cycle (fuel : nat) (i c d : X) (groupi : list X) : res (list X) :=
  if eqb d c then Ok groupi
  else match fuel with
       | 0 => Err OutOfFuel
       | S f => do d' <- app i d; cl_cycle f i c d' (cl_add groupi d')
       end.

(** grouptheory.py:836-877, polyaburnside.py:383-389: the first pass. *)
Definition cl_first (fuel : nat) (sel : X -> list X) (gen : list X) : res (list X) :=
  rfold (fun groupi i =>
           rfold (fun groupi j =>
                    do c <- app i j;
                    let g1 := cl_add groupi c in
                    do d <- app i c;
                    let g2 := cl_add g1 d in
                    cl_cycle fuel i c d g2)
                 (sel i) groupi)
        gen [].

(** grouptheory.py:886-898, polyaburnside.py:392-397: one round of applying every generator to everything found so
    far. *)
Definition cl_round (gen groupi : list X) : res (list X) :=
  rfold (fun group2 i =>
           rfold (fun group2 h =>
                    do d <- app i h;
                    Ok (if negb (cl_in d groupi) && negb (cl_in d group2) then group2 ++ [d]
                        else group2))
                 groupi group2)
        gen [].

(** grouptheory.py:884-905, polyaburnside.py:391-401: rounds until nothing new appears. *)
Fixpoint cl_rounds (fuel : nat) (gen groupi : list X) : res (list X) :=
  do group2 <- cl_round gen groupi;
  match group2 with
  | [] => Ok groupi
  | _ => match fuel with
         | 0 => Err OutOfFuel
         | S f => cl_rounds f gen (groupi ++ group2)
         end
  end.

Definition cl_group (fuel : nat) (sel : X -> list X) (gen : list X) : res (list X) :=
  do groupi <- cl_first fuel sel gen;
  cl_rounds fuel gen groupi.
End Closure.

(** grouptheory.py:820-907 [_group]; the counter [q] is never used; [gen2] leaves out what equals [i]. *)
Definition group_gen (fuel : nat) (gen : list op) : res (list op) :=
  cl_group op_eqb op_apply fuel (fun i => filter (fun k => negb (op_eqb k i)) gen) gen.

(** polyaburnside.py:363-378 [g_apply]: [list(iget( *operations)(source))]; [itemgetter] needs an argument, and with
    a single one it returns the bare item, which [list] rejects: TypeError. *)
Definition g_apply (operations source : list nat) : res (list nat) :=
  match operations with
  | [] | [_] => do _ <- compose operations source; Err TypeError
  | _ => compose operations source
  end.

(** polyaburnside.py:349-402 [group]; [gen[0]] raises IndexError on an empty list; the generators are shifted down by
    one when the first has no 0 (entries are natural numbers, so 0-1 is cut off at 0). *)
Definition polya_group (fuel : nat) (gen : list (list nat)) : res (list (list nat)) :=
  do g0 <- get gen 0;
  let ngens := if existsb (Nat.eqb 0) g0 then gen else map (map (fun e => e - 1)) gen in
  cl_group nlist_eqb g_apply fuel (fun _ => ngens) ngens.

(** grouptheory.py:792-818 [a_group_gen]. *)
Definition a_group_gen (fuel : nat) (trans : list (list nat)) (rots : list op) : res (list op) :=
  do groupi <- a_group trans rots;
  group_gen fuel groupi.
