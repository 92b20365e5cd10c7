(** What the scalar operations mean, and the algebraic laws constant folding relies on. *)
From Verif Require Import Common ElemModel.

(** the function a unary operation stands for (unary + is the identity) *)
Definition meaning {T} (N : num T) (op : @uop T) (x : T) : T :=
  match op with
  | UAbs => x
  | UNeg => n_neg N x
  | USin => n_sin N x
  | UCos => n_cos N x
  | UTan => n_tan N x
  | UCsc => n_div N (n_one N) (n_sin N x)
  | USec => n_div N (n_one N) (n_cos N x)
  | UCot => n_div N (n_cos N x) (n_sin N x)
  | UExp => n_exp N x
  | USqrt => n_sqrt N x
  | URound => n_round N x
  | ULog => n_log N x
  | UPow s => n_pow N x s
  | UClip lo hi =>
    let lo' := if n_ltb N hi lo then hi else lo in
    let hi' := if n_ltb N hi lo then lo else hi in
    if n_ltb N x lo' then lo' else if n_ltb N hi' x then hi' else x
  | UCondL a cmp => if cmp a x then n_one N else n_zero N
  | UCondR cmp b => if cmp x b then n_one N else n_zero N
  | UAddL a => n_add N a x
  | UAddR b => n_add N x b
  | USubL a => n_sub N a x
  | USubR b => n_sub N x b
  | UMulL a => n_mul N a x
  | UMulR b => n_mul N x b
  | UDivL a => n_div N a x
  | UDivR b => n_div N x b
  end.

Definition bmeaning {T} (N : num T) (op : bop) : T -> T -> T :=
  match op with BAdd => n_add N | BSub => n_sub N | BMul => n_mul N | BDiv => n_div N end.

(** laws of a field with decidable equality, as far as the shortcuts use them *)
Record num_laws {T} (N : num T) : Prop := {
  nl_eqb : forall x y, n_eqb N x y = true <-> x = y;
  nl_add_0_l : forall x, n_add N (n_zero N) x = x;
  nl_add_0_r : forall x, n_add N x (n_zero N) = x;
  nl_sub_0_l : forall x, n_sub N (n_zero N) x = n_neg N x;
  nl_sub_0_r : forall x, n_sub N x (n_zero N) = x;
  nl_sub_diag : forall x, n_sub N x x = n_zero N;
  nl_neg_neg : forall x, n_neg N (n_neg N x) = x;
  nl_mul_0_l : forall x, n_mul N (n_zero N) x = n_zero N;
  nl_mul_0_r : forall x, n_mul N x (n_zero N) = n_zero N;
  nl_mul_1_l : forall x, n_mul N (n_one N) x = x;
  nl_mul_1_r : forall x, n_mul N x (n_one N) = x;
  nl_mul_m1_l : forall x, n_mul N (n_neg N (n_one N)) x = n_neg N x;
  nl_mul_m1_r : forall x, n_mul N x (n_neg N (n_one N)) = n_neg N x;
  nl_div_1_r : forall x, n_div N x (n_one N) = x;
  nl_div_0_l : forall x, x <> n_zero N -> n_div N (n_zero N) x = n_zero N;
  nl_div_diag : forall x, x <> n_zero N -> n_div N x x = n_one N;
  nl_pow_0 : forall x, n_pow N x (n_zero N) = n_one N;
  nl_pow_1 : forall x, n_pow N x (n_one N) = x;
  nl_pow_2 : forall x, n_pow N x (n_two N) = n_mul N x x;
  nl_two : n_two N <> n_zero N /\ n_two N <> n_one N
}.

(** the divisors of an operation on an argument with these elements are all non-zero *)
Definition divisors_ok {T} (N : num T) (op : @uop T) (data : list T) : Prop :=
  match op with
  | UDivL _ => Forall (fun x => x <> n_zero N) data
  | UDivR b => b <> n_zero N
  | _ => True
  end.
