(** * Property C65: what a build with BN_DEBUG accepts *)
From Verif Require Import Base Spec Limits Fourier Bignum Outcome Machine While Expression Strict.
From Verif Require Import DebugSoundProof.

(** A compound assignment in a debug build does exactly what it does in a release build, or leaves an infinity and throws a
    std::exception: for every number type, all operands (NaN, superfluous zeros, the object itself), every floating-point
    arithmetic, allocator and fuel.  So BN_DEBUG brings no other results, no undefined behaviour and no endless loops of its own. *)
Theorem C65_operators : forall L P fuel keep op x y al n,
  compound (mkEnv L true P fuel keep) op x y al n = compound (mkEnv L false P fuel keep) op x y al n \/
  exists z n', (z = mkBN BN_POS_INF [] \/ z = mkBN BN_NEG_INF []) /\
    compound (mkEnv L true P fuel keep) op x y al n = Ret (z, Some ExStd) n'.
Proof. intros L P fuel keep op x y. exact (compound_rejects L P fuel keep op x y). Qed.
Print Assumptions C65_operators.

Theorem C65_expressions : forall L P fuel keep e al n,
  eval (mkEnv L true P fuel keep) e al n = eval (mkEnv L false P fuel keep) e al n \/
  exists n', eval (mkEnv L true P fuel keep) e al n = Throw ExStd n'.
Proof.
  intros L P fuel keep e al n. destruct (eval_stops L P fuel keep e al n) as [H|(x & n' & -> & H)]; [left; exact H|right; eauto].
Qed.
Print Assumptions C65_expressions.

(** Programs with branches and loops in which nothing catches exceptions. *)
Theorem C65_programs : forall L P fuel keep f p s al n,
  strict_run (mkEnv L true P fuel keep) f p s al n = strict_run (mkEnv L false P fuel keep) f p s al n \/
  exists n', strict_run (mkEnv L true P fuel keep) f p s al n = Throw ExStd n'.
Proof.
  intros L P fuel keep f p s al n. destruct (run_stops L P fuel keep f p s al n) as [H|(x & n' & -> & H)]; [left; exact H|right; eauto].
Qed.
Print Assumptions C65_programs.

(** So if such a program completes in a debug build, its variables and its requests for memory are those of the release build,
    which also completes, with or without handlers around its statements. *)
Theorem C65_completed : forall L P fuel keep f p s al n s' n',
  strict_run (mkEnv L true P fuel keep) f p s al n = Ret s' n' ->
  strict_run (mkEnv L false P fuel keep) f p s al n = Ret s' n' /\
  srun (mkEnv L false P fuel keep) f p s al n = Ret s' n' /\ srun (mkEnv L true P fuel keep) f p s al n = Ret s' n'.
Proof.
  intros L P fuel keep f p s al n s' n' H.
  assert (strict_run (mkEnv L false P fuel keep) f p s al n = Ret s' n') as H'.
  { destruct (C65_programs L P fuel keep f p s al n) as [<-|[k E]]; [exact H|congruence]. }
  split; [exact H'|]. split; apply strict_srun; assumption.
Qed.
Print Assumptions C65_completed.

(** Handlers change that: a program that swallows exceptions completes in both builds with different values. *)
Theorem C65_handlers_refuted : exists p, forall P keep, exists s n t k,
  run (exec (mkEnv base10 true P 20 keep) p fresh) = Ret s n /\ s 0%nat = mkBN BN_POS_INF [] /\
  run (exec (mkEnv base10 false P 20 keep) p fresh) = Ret t k /\ t 0%nat = mkBN BN_POS [7].
Proof.
  exists [INew 0 BN_POS [3; 0]; INew 1 BN_POS [4]; IAssign ODiv 0 1]. intros P keep. do 4 eexists.
  split; [cbv; reflexivity|]. split; [reflexivity|]. split; [cbv; reflexivity|reflexivity].
Qed.
Print Assumptions C65_handlers_refuted.

(** while (a >= b) { q += one; a -= b; } with a = 36, b = 12 completes in a debug build; with a = 30 it throws at
    30 - 12. *)
Definition count_down (a b : list Z) : stmt :=
  Seq (block [INew 0 BN_POS a; INew 1 BN_POS b; INew 2 BN_POS [1]])
      (While CGe 0 1 (block [IAssign OAdd 3 2; IAssign OSub 0 1])).
Example C65_accepted : forall P keep, exists s n,
  run (strict_run (mkEnv base10 true P 0 keep) 20 (count_down [3; 6] [1; 2]) fresh) = Ret s n /\ s 3%nat = mkBN BN_POS [3].
Proof. intros P keep. do 2 eexists. split; [cbv; reflexivity|reflexivity]. Qed.
Example C65_stopped : forall P keep, exists n,
  run (strict_run (mkEnv base10 true P 0 keep) 20 (count_down [3; 0] [1; 2]) fresh) = Throw ExStd n.
Proof. intros P keep. eexists. cbv. reflexivity. Qed.
