# Formal model of ebsdtorch in Rocq (Coq 8.16.1)

Generated by `tools/design.py` from hand-written parts (`tools/design_head.md`, `tools/design_areas.md`, `tools/methods.py`,
`tools/design_cov.py`), the property list, the manifest and the recorded output of `Print Assumptions`.

## Approach

`/repo` is read as text; nothing is executed. Each modelled Python function becomes a small Gallina function with a comment
citing file and lines. Layout under `rocq/theories/`:

* `<Area>Model.v` – definitions only, mirroring the code branch by branch;
* `<Area>Spec.v` – short specifications that do not mention the model;
* `<Area>Proofs.v` and further files – lemmas;
* `<Area>Props.v` – property theorems `cNN_...`, with `Print Assumptions` and a non-vacuity `Example` beside them.

When the code violates a property, the theorem carries the suffix `_refuted` and exhibits a witness (usually as the negation of
the universally quantified claim); what does hold is proved beside it, often as an exact "if and only if" describing where the
claim is true. `_partial` marks theorems that are only part of a true property.

Seeded bugs: `tools/mutate.py` edits a model definition in a scratch copy, rebuilds and records which theorems fail;
`seeded/LOG.jsonl` has one line per attempt, including survivors and what was tightened because of them.

### Conventions

* Floating-point numbers are exact real numbers (Coq `R`). Rounding and overflow are not modelled, except where said
  otherwise: integer overflow of int32 positions (C18, C190), the default dtype of Python-scalar powers (C226-C235), float64
  thresholds that occur as literals in the code, and the Fp area (C273-C278), which
  rounds every operation. Results undefined over the reals (0/0, acos outside [-1, 1], log 0) are `None`,
  an outcome constructor or, in the Wigner and scattering-factor areas, values of a type `fl` of reals extended with the two
  infinities and NaN, with IEEE rules.
* A batched element-wise function is modelled on one element; batching is `map`. Where shape is part of the behaviour
  (broadcasting, reshape, squeeze, boolean masks, gather/scatter), shapes are lists of naturals and tensors are lists or functions of
  their indices, and operations may return an error.
* Exceptions are values (`option` or a constructor naming the Python exception).
* Random draws, tie-breaking of `topk`/`argsort`, uninitialised memory (`torch.empty`), `eigh`, `qr`, `matrix_exp`, the simulator inside
  indexing/refinement, and value of `nan.to(int)` are universally quantified arguments, constrained only by their documented contract
  (stated as hypotheses of the theorem where needed).
* FFTs are the finite Fourier sums they compute. `grid_sample`, `conv2d`, `pad`, `bincount`, `searchsorted` are written out as index
  functions following the torch documentation.
* Space-group translations are integers in units of 1/24.
* In-place updates that escape to the caller are modelled with an explicit memory or by returning the caller's tensor after the call.

## Trusted base

* The kernel of Coq 8.16.1 (including `vm_compute`, used for finite tables: symmetry operators, space groups, coefficient rows), `coqc`.
* Axioms: only axioms of the Coq standard library, listed per theorem below. Coquelicot is used for derivatives and integrals
  (CuboVol, SphereArea, Sht*, NlparMore, Sf*); it adds no axiom.
* The hand translation from Python to Gallina, and the documented behaviour of the torch/numpy primitives named above.
* Not covered: performance, devices, autograd graphs, TorchScript compilation, file formats, plotting, rounding errors (except in the Fp area, C273-C278, and the double-precision counterexamples).

