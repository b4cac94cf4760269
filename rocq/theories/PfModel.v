(** Model of the particle filter: /repo/include/mcl_3dl/pf.h lines 89-462.

    - [T] is the particle state type with its [operator+] and [normalize()].
    - User callbacks (likelihood, model, bias) get the number of the call as an
      extra argument, so that callbacks with internal state are covered.
    - The random engine is replaced by its outcomes: the uniform offset of
      resample and the sequence of generated noises are inputs.
    - [accum_probability_] (line 105) and [entropy_] (line 461) are not initialised
      by any constructor: they are [option], [None] = never written.
    - [std::sort] with [Particle::operator<] (line 106) is not stable: its result is
      an input constrained by [sorted_copy]. *)
From Coq Require Import List Arith Bool Permutation.
From Verif Require Import Arith.
Import ListNotations.

Section Pf.
Context (A : arith).
Context {T : Type}.

(** pf.h:89-110 *)
Record particle := { st : T; w : A; bias : A; acc : option A }.
(** pf.h:457-461 (particles_dup_ is scratch memory: every use starts by overwriting it) *)
Record filter := { parts : list particle; entropy : option A }.

(** pf.h:93-97 default constructor; the default state is a parameter *)
Definition new_particle (dflt : T) : particle :=
  {| st := dflt; w := f0; bias := f0; acc := None |}.
(** pf.h:164-168 *)
Definition new_filter (dflt : T) (n : nat) : filter :=
  {| parts := repeat (new_particle dflt) n; entropy := None |}.

Definition set_st (p : particle) (s : T) := {| st := s; w := w p; bias := bias p; acc := acc p |}.
Definition set_w (p : particle) (x : A) := {| st := st p; w := x; bias := bias p; acc := acc p |}.
Definition set_bias (p : particle) (x : A) := {| st := st p; w := w p; bias := x; acc := acc p |}.
Definition set_acc (p : particle) (x : A) := {| st := st p; w := w p; bias := bias p; acc := Some x |}.

(** "for (auto& p : particles_) p = f(p)" where f also knows how often it was called *)
Fixpoint mapi_from {X Y} (i : nat) (f : nat -> X -> Y) (l : list X) : list Y :=
  match l with
  | [] => []
  | x :: l' => f i x :: mapi_from (S i) f l'
  end.
Definition mapi {X Y} (f : nat -> X -> Y) (l : list X) : list Y := mapi_from 0 f l.

(** pf.h:169-181 init / initUsingNoiseGenerator; [gen i] is the i-th generated state *)
Definition init (gen : nat -> T) (f : filter) : filter :=
  {| parts := mapi (fun i p => set_w (set_st p (gen i)) (frecip (length (parts f)))) (parts f);
     entropy := entropy f |}.

(** pf.h:189-194 and 401-406: running sums written to accum_probability_ *)
Fixpoint accumulate (a : A) (ps : list particle) : list particle * A :=
  match ps with
  | [] => ([], a)
  | p :: ps' =>
      let a' := fadd a (w p) in
      let '(qs, t) := accumulate a' ps' in
      (set_acc p a' :: qs, t)
  end.

(** The fields of particles_dup_ that are read later: accum_probability_ and state_. *)
Fixpoint dup_of (a : A) (ps : list particle) : list (A * T) :=
  match ps with
  | [] => []
  | p :: ps' => let a' := fadd a (w p) in (a', st p) :: dup_of a' ps'
  end.

(** pf.h:196-197, 408-409 with pf.h:106-109: legal outcomes of std::sort on the copy *)
Definition sorted_copy (orig d : list (A * T)) : Prop :=
  Permutation orig d /\
  forall i j x y, i < j -> nth_error d i = Some x -> nth_error d j = Some y ->
    flt (fst y) (fst x) = false.

(** std::lower_bound(first, end, Particle(v)) as a binary search over positions
    [first, first+len) (libstdc++ algorithm); [None] would be an access outside. *)
Fixpoint lower_bound (fuel : nat) (d : list (A * T)) (first len : nat) (v : A) : option nat :=
  match len with
  | 0 => Some first
  | _ =>
      match fuel with
      | 0 => None
      | S fuel' =>
          let half := Nat.div2 len in
          match nth_error d (first + half) with
          | None => None
          | Some x =>
              if flt (fst x) v
              then lower_bound fuel' d (first + half + 1) (len - half - 1) v
              else lower_bound fuel' d first half v
          end
      end
  end.
Definition lower_bound_from (d : list (A * T)) (it : nat) (v : A) : option nat :=
  lower_bound (length d) d it (length d - it) v.

(** pf.h:203-224: the scan loop of resample.  [i] counts iterations, [it]/[itp] are
    the two iterators, [k] counts generated noises.  [None] = dereferencing end(). *)
Fixpoint resample_loop (plus : T -> T -> T) (normalize : T -> T)
    (pstep offset : A) (noise : nat -> T) (d : list (A * T))
    (n i it itp k : nat) : option (list T) :=
  match n with
  | 0 => Some []
  | S n' =>
      let pscan := fadd (fmul pstep (fofnat i)) offset in
      match lower_bound_from d it pscan with
      | None => None
      | Some it' =>
          match nth_error d it' with
          | None =>                                   (* it == end *)
              match nth_error d itp with
              | None => None
              | Some x =>
                  option_map (cons (snd x))
                    (resample_loop plus normalize pstep offset noise d n' (S i) it' itp k)
              end
          | Some x =>
              if it' =? itp then
                option_map (cons (normalize (plus (snd x) (noise k))))
                  (resample_loop plus normalize pstep offset noise d n' (S i) it' it' (S k))
              else
                option_map (cons (snd x))
                  (resample_loop plus normalize pstep offset noise d n' (S i) it' it' k)
          end
      end
  end.

(** writing the new states and the uniform weight into the old vector (p.state_,
    p.probability_ are assigned, p.probability_bias_ and accum stay) *)
Fixpoint assign_states (prob : A) (ps : list particle) (ss : list T) : list particle :=
  match ps, ss with
  | p :: ps', s :: ss' => set_w (set_st p s) prob :: assign_states prob ps' ss'
  | _, _ => []
  end.

(** pf.h:182-225.  [d] is the sorted copy (an outcome of std::sort), [offset] the
    outcome of uniform_real_distribution(0, pstep). *)
Definition resample (plus : T -> T -> T) (normalize : T -> T)
    (offset : A) (noise : nat -> T) (d : list (A * T)) (f : filter) : option filter :=
  let '(ps, total) := accumulate f0 (parts f) in
  let n := length ps in
  let pstep := fdiv total (fofnat n) in
  match resample_loop plus normalize pstep offset noise d n 0 0 0 0 with
  | None => None
  | Some ss => Some {| parts := assign_states (frecip n) ps ss; entropy := entropy f |}
  end.
Definition resample_step (f : filter) : A :=
  fdiv (snd (accumulate f0 (parts f))) (fofnat (length (parts f))).

(** pf.h:226-237 *)
Definition add_noise (plus : T -> T -> T) (noise : nat -> T) (f : filter) : filter :=
  {| parts := mapi (fun i p => set_st p (plus (st p) (noise i))) (parts f);
     entropy := entropy f |}.
(** pf.h:238-244 *)
Definition predict (model : nat -> T -> T) (f : filter) : filter :=
  {| parts := mapi (fun i p => set_st p (model i (st p))) (parts f); entropy := entropy f |}.
(** pf.h:245-251 *)
Definition do_bias (prob : nat -> T -> A -> A) (f : filter) : filter :=
  {| parts := mapi (fun i p => set_bias p (prob i (st p) (bias p))) (parts f);
     entropy := entropy f |}.

(** pf.h:255-260 *)
Definition sum_w (ps : list particle) : A := fold_left (fun a p => fadd a (w p)) ps f0.
(** pf.h:263-272; [entropy_ *= -1] multiplies by minus one *)
Definition entropy_sum (ps : list particle) : A :=
  fold_left (fun e p => if flt f0 (w p) then fadd e (fmul (w p) (flog (w p))) else e) ps f0.
(** pf.h:252-279 *)
Definition measure (likelihood : nat -> T -> A) (f : filter) : filter :=
  let ps := mapi (fun i p => set_w p (fmul (w p) (likelihood i (st p)))) (parts f) in
  let sum := sum_w ps in
  if flt f0 sum then
    let qs := map (fun p => set_w p (fdiv (w p) sum)) ps in
    {| parts := qs; entropy := Some (fmul (entropy_sum qs) (fopp f1)) |}
  else {| parts := parts f; entropy := entropy f |}.

(** pf.h:399-436, loop 419-435; [pscan] is accumulated *)
Fixpoint resize_loop (pstep : A) (d : list (A * T)) (n : nat) (pscan : A) (it itp : nat)
  : option (list T) :=
  match n with
  | 0 => Some []
  | S n' =>
      let pscan' := fadd pscan pstep in
      match lower_bound_from d it pscan' with
      | None => None
      | Some it' =>
          match nth_error d it' with
          | None =>
              match nth_error d itp with
              | None => None
              | Some x => option_map (cons (snd x)) (resize_loop pstep d n' pscan' it' itp)
              end
          | Some x => option_map (cons (snd x)) (resize_loop pstep d n' pscan' it' it')
          end
      end
  end.
(** std::vector::resize: keeps a prefix or appends default particles *)
Definition vec_resize (dflt : T) (n : nat) (ps : list particle) : list particle :=
  firstn n ps ++ repeat (new_particle dflt) (n - length ps).
(** pf.h:399-436 *)
Definition resize (dflt : T) (d : list (A * T)) (num : nat) (f : filter) : option filter :=
  let '(ps, total) := accumulate f0 (parts f) in
  let pstep := fdiv total (fofnat num) in
  match resize_loop pstep d num f0 0 0 with
  | None => None
  | Some ss => Some {| parts := assign_states (frecip num) (vec_resize dflt num ps) ss;
                       entropy := entropy f |}
  end.

(** pf.h:437-442 *)
Definition append (dflt : T) (num : nat) (f : filter) : filter :=
  {| parts := vec_resize dflt (length (parts f) + num) (parts f); entropy := entropy f |}.

(** pf.h:361-374 and 375-390; [None] = particles_[0] of an empty vector *)
Fixpoint max_loop (weight : particle -> A) (m : T) (mp : A) (ps : list particle) : T :=
  match ps with
  | [] => m
  | p :: ps' => if flt mp (weight p) then max_loop weight (st p) (weight p) ps'
                else max_loop weight m mp ps'
  end.
Definition max (f : filter) : option T :=
  match parts f with
  | [] => None
  | p :: _ => Some (max_loop w (st p) (w p) (parts f))
  end.
Definition biased_weight (p : particle) : A := fmul (w p) (bias p).
Definition max_biased (f : filter) : option T :=
  match parts f with
  | [] => None
  | p :: _ => Some (max_loop biased_weight (st p) (biased_weight p) (parts f))
  end.

(** pf.h:391-394; [None] = index out of range *)
Definition get_particle (f : filter) (i : nat) : option T := option_map st (nth_error (parts f) i).

(** The mean classes are used through [add], [getTotalProbability] and [getMean]
    (pf.h:112-156 and state_6dof.h:316-372). *)
Record mean_ops := {
  mean_st : Type;
  mean_new : mean_st;
  mean_add : mean_st -> T -> A -> mean_st;
  mean_total : mean_st -> A;
  mean_get : mean_st -> T
}.

(** pf.h:286-291 *)
Fixpoint expect_loop (M : mean_ops) (pass : A) (m : mean_st M) (ps : list particle) : mean_st M :=
  match ps with
  | [] => m
  | p :: ps' =>
      let m' := mean_add M m (st p) (w p) in
      if flt pass (mean_total M m') then m' else expect_loop M pass m' ps'
  end.

(** pf.h:285: legal outcomes of sorting the particles themselves, reversed;
    reading a never written accum_probability_ makes the call undefined *)
Definition sorted_desc (ps qs : list particle) : Prop :=
  Permutation ps qs /\
  (forall p, In p ps -> acc p <> None) /\
  forall i j p q a b, i < j -> nth_error qs i = Some p -> nth_error qs j = Some q ->
    acc p = Some a -> acc q = Some b -> flt a b = false.

(** pf.h:280-293 with pass_ratio >= 1 (no reordering); getMean asserts a positive total *)
Definition expectation (M : mean_ops) (pass : A) (f : filter) : option T :=
  let m := expect_loop M pass (mean_new M) (parts f) in
  if flt f0 (mean_total M m) then Some (mean_get M m) else None.
(** pf.h:280-293 with pass_ratio < 1: [qs] is the reordered particle vector *)
Definition expectation_pass (M : mean_ops) (pass : A) (qs : list particle) (f : filter)
  : option T * filter :=
  let f' := {| parts := qs; entropy := entropy f |} in
  (expectation M pass f', f').
(** pf.h:294-303 *)
Definition expectation_biased (M : mean_ops) (f : filter) : option T :=
  let m := fold_left (fun m p => mean_add M m (st p) (biased_weight p)) (parts f) (mean_new M) in
  if flt f0 (mean_total M m) then Some (mean_get M m) else None.

(** pf.h:309-318: how many leading particles are used *)
Fixpoint pass_count (pass sum : A) (ps : list particle) : nat :=
  match ps with
  | [] => 0
  | p :: ps' => let sum' := fadd sum (w p) in
                S (if flt pass sum' then 0 else pass_count pass sum' ps')
  end.
(** pf.h:320-333: the particles of the sample: all of the first p_num, or, if the ratio is
    below one, the first p_num * ratio of them in shuffled order.  [shuffle] is std::shuffle
    with the filter's engine: some function that permutes its argument.  size_t(x) of the
    product truncates (ftrunc); std::max(0, _) on size_t is the identity. *)
Definition sample_indices (p_num : nat) (ratio : A) (shuffle : list nat -> list nat) : list nat :=
  if flt ratio f1
  then firstn (Nat.min p_num (Nat.max 0 (ftrunc (fmul (fofnat p_num) ratio)))) (shuffle (seq 0 p_num))
  else seq 0 p_num.

(** A matrix as a function; pf.h:343-349: one particle's contribution *)
Definition mat := nat -> nat -> A.
Definition mat_set (m : mat) (i j : nat) (x : A) : mat :=
  fun a b => if (a =? i) && (b =? j) then x else m a b.
(** inner loop body: [cov[k][j] = cov[j][k] += e] *)
Definition cov_upd (elem : nat -> nat -> A) (j k : nat) (m : mat) : mat :=
  let x := fadd (m j k) (elem j k) in mat_set (mat_set m j k x) k j x.
Fixpoint cov_row (elem : nat -> nat -> A) (j : nat) (ks : list nat) (m : mat) : mat :=
  match ks with [] => m | k :: ks' => cov_row elem j ks' (cov_upd elem j k m) end.
Fixpoint cov_rows (elem : nat -> nat -> A) (dim : nat) (js : list nat) (m : mat) : mat :=
  match js with
  | [] => m
  | j :: js' => cov_rows elem dim js' (cov_row elem j (seq j (dim - j)) m)
  end.
(** pf.h:339-350 *)
Fixpoint cov_loop (covElement : T -> T -> nat -> nat -> A) (e : T) (dim : nat)
    (ps : list particle) (idx : list nat) (m : mat) (p_sum : A) : option (mat * A) :=
  match idx with
  | [] => Some (m, p_sum)
  | i :: idx' =>
      match nth_error ps i with
      | None => None
      | Some p =>
          let m' := cov_rows (fun j k => fmul (covElement (st p) e j k) (w p)) dim (seq 0 dim) m in
          cov_loop covElement e dim ps idx' m' (fadd p_sum (w p))
      end
  end.
(** pf.h:351-357 *)
Definition cov_div (dim : nat) (m : mat) (p_sum : A) : mat :=
  fun i j => if (i <? dim) && (j <? dim) then fdiv (m i j) p_sum else m i j.
(** pf.h:304-360 with pass_ratio >= 1 (no reordering) *)
Definition covariance (M : mean_ops) (covElement : T -> T -> nat -> nat -> A) (dim : nat)
    (pass ratio : A) (shuffle : list nat -> list nat) (f : filter) : option mat :=
  match expectation M pass f with
  | None => None
  | Some e =>
      let p_num := pass_count pass f0 (parts f) in
      match cov_loop covElement e dim (parts f) (sample_indices p_num ratio shuffle) (fun _ _ => f0) f0 with
      | None => None
      | Some (m, p_sum) => Some (cov_div dim m p_sum)
      end
  end.
(** pf.h:304-360 with pass_ratio < 1: expectation (308) has reordered the particles to [qs] *)
Definition covariance_pass (M : mean_ops) (covElement : T -> T -> nat -> nat -> A) (dim : nat)
    (pass ratio : A) (shuffle : list nat -> list nat) (qs : list particle) (f : filter) : option mat * filter :=
  let f' := {| parts := qs; entropy := entropy f |} in
  (covariance M covElement dim pass ratio shuffle f', f').

End Pf.
Arguments particle : clear implicits. Arguments filter : clear implicits.
Arguments mean_ops : clear implicits.

(** ParticleWeightedMean, pf.h:112-156, for vector states (operator[] and size()
    as list access; T() is the zero vector of dimension d). *)
Section MeanVec.
Context (A : arith).
Definition vadd (x y : list A) : list A := map (fun p => fadd (fst p) (snd p)) (combine x y).
Definition wm_add (m : list A * A) (s : list A) (p : A) : list A * A :=
  (vadd (map (fun x => fmul x p) s) (fst m), fadd (snd m) p).
Definition wm_get (m : list A * A) : list A := map (fun x => fdiv x (snd m)) (fst m).
Definition weighted_mean (d : nat) : mean_ops A (list A) :=
  {| mean_st := list A * A;
     mean_new := (repeat f0 d, f0);
     mean_add := wm_add;
     mean_total := snd;
     mean_get := wm_get |}.
(** pf.h:64-70 covElement *)
Definition cov_element (s e : list A) (j k : nat) : A :=
  fmul (fsub (nth k s f0) (nth k e f0)) (fsub (nth j s f0) (nth j e f0)).
End MeanVec.
