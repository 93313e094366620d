(** The integral over a triangle of the product of two linear functions. *)
From Coq Require Import Reals Lra.
From Coquelicot Require Import Coquelicot.
Open Scope R_scope.
Lemma tri_integral : forall a b c a' b' c' : R,
  RInt (fun s => RInt (fun u => (a + s * (b - a) + u * (c - a)) * (a' + s * (b' - a') + u * (c' - a'))) 0 (1 - s)) 0 1
  = ((a + b + c) * (a' + b' + c') + a * a' + b * b' + c * c') / 24.
Proof.
  intros a b c a' b' c'.
  assert (I : forall s, RInt (fun u => (a + s * (b - a) + u * (c - a)) * (a' + s * (b' - a') + u * (c' - a'))) 0 (1 - s)
    = (a + s * (b - a)) * (a' + s * (b' - a')) * (1 - s) + ((a + s * (b - a)) * (c' - a') + (a' + s * (b' - a')) * (c - a)) * (1 - s) ^ 2 / 2 + (c - a) * (c' - a') * (1 - s) ^ 3 / 3).
  { intros s. apply is_RInt_unique.
    set (F := fun u => (a + s * (b - a)) * (a' + s * (b' - a')) * u + ((a + s * (b - a)) * (c' - a') + (a' + s * (b' - a')) * (c - a)) * u ^ 2 / 2 + (c - a) * (c' - a') * u ^ 3 / 3).
    replace ((a + s * (b - a)) * (a' + s * (b' - a')) * (1 - s) + ((a + s * (b - a)) * (c' - a') + (a' + s * (b' - a')) * (c - a)) * (1 - s) ^ 2 / 2 + (c - a) * (c' - a') * (1 - s) ^ 3 / 3) with (minus (F (1 - s)) (F 0)) by (unfold F, minus, plus, opp; cbn; field).
    apply (is_RInt_derive F).
    - intros x _. unfold F. auto_derive; [trivial|field].
    - intros x _. apply (ex_derive_continuous (fun u : R => (a + s * (b - a) + u * (c - a)) * (a' + s * (b' - a') + u * (c' - a')))). auto_derive. trivial. }
  rewrite (RInt_ext _ (fun s => (a + s * (b - a)) * (a' + s * (b' - a')) * (1 - s) + ((a + s * (b - a)) * (c' - a') + (a' + s * (b' - a')) * (c - a)) * (1 - s) ^ 2 / 2 + (c - a) * (c' - a') * (1 - s) ^ 3 / 3)) by (intros; apply I).
  apply is_RInt_unique.
  set (G := fun s => 
     a * a' * s + (a * (b' - a') + (b - a) * a' - a * a') * s ^ 2 / 2 + ((b - a) * (b' - a') - a * (b' - a') - (b - a) * a') * s ^ 3 / 3 - (b - a) * (b' - a') * s ^ 4 / 4
     + (a * (c' - a') + a' * (c - a)) / 2 * (s - s ^ 2 + s ^ 3 / 3) + ((b - a) * (c' - a') + (b' - a') * (c - a)) / 2 * (s ^ 2 / 2 - 2 * s ^ 3 / 3 + s ^ 4 / 4)
     + (c - a) * (c' - a') / 3 * (s - 3 * s ^ 2 / 2 + s ^ 3 - s ^ 4 / 4)).
  replace (((a + b + c) * (a' + b' + c') + a * a' + b * b' + c * c') / 24) with (minus (G 1) (G 0)) by (unfold G, minus, plus, opp; cbn; field).
  apply (is_RInt_derive G).
  - intros x _. unfold G. auto_derive; [trivial|field].
  - intros x _. apply (ex_derive_continuous (fun s : R => (a + s * (b - a)) * (a' + s * (b' - a')) * (1 - s) + ((a + s * (b - a)) * (c' - a') + (a' + s * (b' - a')) * (c - a)) * (1 - s) ^ 2 / 2 + (c - a) * (c' - a') * (1 - s) ^ 3 / 3)). auto_derive. trivial.
Qed.
