# Formal model of ExoRad2 in Rocq (Coq 8.16.1)

## 1. What is modelled and how

The model is a set of total Gallina functions mirroring the Python functions branch by branch.

* **Exceptions are values.** `res A := Ok a | Err exn` (Base.v); `exn` names the Python exception class.
  `try/except` blocks are explicit matches.
* **Mutation is returned.** A function that mutates an argument returns the new value as well
  (e.g. `vstack_tables` returns the stacked table *and* the mutated input tables, because the mutation of
  `channel.table` is observable by the next target).
* **Loops** are structural recursion or folds; `while` loops without an evident bound use explicit fuel and a
  distinguished out-of-fuel result that no theorem conflates with a normal one.
* **Numbers.** numpy `float64` is modelled by real numbers (`R` of the standard library), i.e. rounding is
  abstracted away. Where NaN/infinity matter (noise, tables, rebin), values live in `xr` (XR.v): finite real,
  +inf, -inf or NaN with IEEE propagation rules; signed zero is not modelled.
* **Units.** astropy quantities are modelled after conversion: a value in the unit fixed by the code. Unit
  conversion itself is a multiplication by a positive factor, recorded where used.
* **Dictionaries / OrderedDict / tables** are association lists in insertion order with Python's update rule
  (existing key keeps its place); astropy tables are ordered lists of named columns.
* **External calls** (file readers, scipy special functions, `float()` parsing, PSF images, worker pool) are
  parameters of the model: theorems are quantified over them; assumptions about them are visible hypotheses.

File layout (`rocq/theories/`): `Base.v`, `Dict.v`, `PyStr.v`, `XR.v` (generic material), `M_*.v` (model of the code, definitions only),
`S_*.v` (small independent specifications), `L_*.v` (lemmas and proofs), `P_*.v` (property theorems: statement,
proof, `Print Assumptions`, with `Example`s showing that the hypotheses are met).

## 2. Plan

The properties are grouped by area; section 4 says for each property what is modelled and how it is proved.
Every property of properties.jsonl can be expressed in the model; where reading the code showed that the first
wording is false of the code, the theorem is a characterisation of what happens plus a refutation (`_refuted`),
and where only a part is proved the theorem carries the suffix `_partial`.

## 3. Trusted base

* Coq's kernel (8.16.1), checked again by `coqchk`.
* Axioms: only those of the standard library's Reals (`ClassicalDedekindReals.sig_forall_dec`,
  `ClassicalDedekindReals.sig_not_dec`, `FunctionalExtensionality.functional_extensionality_dep`,
  and `Classical_Prop.classic` where real analysis lemmas need it). Each `P_*.v` prints them per theorem.
* The faithfulness of the model to the Python text, which was read and not run.

