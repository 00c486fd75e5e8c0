# Formal model of energy-py-linear in Rocq (Coq 8.16.1)

The code in /repo builds a mixed integer linear program from a description of a site and its assets, hands it
to PuLP/CBC, and reads the values of the variables back into a table. The model follows the same path, function by
function, and the specification says what a site, an asset, a cost or a results table *means* without mentioning
any linear program. The theorems connect the two for every configuration, every horizon and every solver
that keeps the stated contract.

    arguments --Ctors/IntervalData/Terms/ConstraintArgs--> configurations
              --Assets/EVs/Site/Constraints/Objectives--> linear program (Pulp, Optimizer)
              --solver (a parameter)--> values --Extract--> results table --Accounting--> accounts
    Process: any sequence of these in one Python process

## 1. Files (rocq/theories)

**Model** (each definition cites file:lines of /repo; nothing else in the development defines program behaviour)

| file | models |
|------|--------|
| Base | Python exceptions as values (`res`), lists, indexing, strings |
| Pulp | contract of PuLP objects: LpVariable, affine expressions, constraints, name sanitising |
| Params | freq.py, flags.py, defaults.py, utils.py |
| Optimizer | optimizer.py: variables, constraints, objective, min/max of two/many, constrain_max/min, solve; the contract of a solver |
| Types | configuration records, one-interval objects, `getattr`, interval_data.IntervalVars and its filters |
| Assets, EVs, Site | assets/*.py: one_interval, constrain_within_interval, constrain_after_intervals |
| Constraints, ConstraintArgs | constraints.py (objects; dictionaries as users pass them, pydantic's reading of them) |
| Objectives, Terms | objectives.py (the objective functions; term_factory and dictionaries) |
| Extract | results/extract.py, schema.py, checks.py, warnings.py |
| Pipeline | Site.optimize |
| IntervalData, Ctors | SiteIntervalData, validate_interval_data, the constructors of every asset and of Site |
| Accounting | accounting/accounting.py, accounting/calculate.py |
| Plot | plot.py, debug.py (what they read from and write to the results) |
| DataGen | data_generation.py |
| Process | several sites/assets/optimisations sharing objects in one process (in-place mutation included) |

**Specification** (read these to see what the theorems say): SpecOpt (C01-C06), Spec (dispatch, physical rules, cost,
emissions), SpecReport (the results table), SpecRun (a feasible run), SpecCost, SpecPad, SpecNames, SpecTotals, SpecTerms,
SpecInput, SpecDicts, SpecAccounts, SpecFunctions, SpecColumns, SpecConstraintArgs, SpecCompare, SpecPossible, SpecPlot, SpecEnergy, SpecScale, SpecMoves,
SpecSwitch, SpecReadings,
and the head of PropDataGen.

**Theorems**: the `Prop*` files. **Concrete cases** meeting the hypotheses: `Sample*` files, and Examples beside the theorems.
**Proof machinery** (not needed to read the statements): Check, Lucky, Certified and Capped (concrete solvers for the examples),
Emit, Prim, Layout, Rows, Sem, SemEv, SemSite, SemProg, SemObj, SemCells, SemRows, SemTable, SemResults, SemTerms, SemFun,
SemFunTerms, OptFacts, RunFacts, Builds, Complete, ExtractOk, Bounded, Pad, Totals, Totals2, Returns, RowNames, Change, Mono, Shift,
ShiftRun, Blind, Owned, Columns, Compare, Horizon, Standby, Plain, Move, SemAll, SemBins.

## 2. How each property is modelled and proved

| id | modelled as | proof |
|----|-------------|-------|
| C01-C04 | the four methods run on an arbitrary program state; feasible solutions of the enlarged program | case analysis on the binary, induction over the list; both directions (value exact; which assignments extend); C04: equality needs a positive weight, refutation for a negative one |
| C05 | constrain_max/min with one binary | both directions |
| C06 | solve on any program | NoDup reflection of pulp's check; a clash raises |
| C07-C09 | every feasible run, every interval, all assets | the emitted rows are characterised per asset (Sem*), then induction over intervals and assets |
| C10-C15 | grid limits and batteries | constraint set <-> physical rules; telescoping by induction over the horizon |
| C16-C22 | EVs (events x chargers) | double induction; C22 compares the two programs by exhibiting dispatches |
| C23-C28 | CHP, boiler, heat pump, renewable, valve, spill | both directions ("any point allowed") |
| C29, C30 | custom constraints | evaluation of filtered sums; the program allows exactly the physical dispatches satisfying the custom constraints |
| C31-C33 | price, carbon, custom terms | evaluation of the objective expression against a cost written on dispatches and on the table |
| C34 | solver contract + completeness | from a physical dispatch a feasible assignment is built through the fresh identities |
| C35, C36 | IntervalData | list lemmas, exact accept/reject conditions; `C35_numbers`: which number each interval gets |
| C37-C40 | Extract | row by row; substring lemmas on column names; `SampleData`: names of custom interval data that make a balanced run raise or set the spill flag |
| C41-C43 | Accounting on arbitrary tables and on tables of runs | sums over columns; which columns a type or name picks (`PropPicked`); `_refuted` witnesses where accounts and objective differ |
| C44 | Freq | field arithmetic |
| C45, C55 | dictionaries | the reader against an independent reading of a dictionary; end to end through optimize |
| C46 | filters of IntervalVars | list lemmas |
| C47 | Process | building, solving and reading commute with every renaming of variable identities (Shift, ShiftRun) |
| C48 | Ctors | exact accept/reject conditions; what a constructed object contains |
| C49 | DataGen with an arbitrary source of random numbers in range | list lemmas; `PropDraws`: energies and prices draw by draw |
| C50 | optimize with any solver answer | case analysis on the status |
| C51-C53 | objectives with function terms; solvers stopped early | SemFun*, weak duality witnesses in Certified |
| C54 | names of the columns | parsing of names (commas, equality signs), injectivity of decimal numerals |
| C56-C58 | two runs compared | a dispatch of one site is carried over to the other |
| C59, C60 | horizon split, scaled prices | joining and splitting dispatches |
| C61, C62 | when optimize succeeds | existence of a dispatch <-> success; explicit stand-by dispatch |
| C63 | constructors to result | composition of C48, C54, C61, C62 |
| C64 | accounts of one run at the prices of another | optimality of the run at actual prices |
| C65 | Plot: the table before and after plot functions, and their outcome | invariant of the statements of a plot; rounding lemma |
| C66 | the balance of C07 and the storage of C14/C19 summed over the horizon; flat prices | exchange of sums, telescoping; the dispatch without the batteries |
| C67 | two runs, sizes related by k | carried dispatch (Change), both directions |
| C68 | two runs, each interval split in k | carried dispatch (Change) with interpolated charges |
| C69 | the optimum of C34/C53 compared with the same dispatch after a small move | moved dispatch (Move), physical and its cost computed exactly |
| C70 | the same, with two or three assets moved in one interval | moved dispatch |
| C71 | the same, one battery moved in two intervals | moved dispatch, levels between the two intervals shifted |
| C72 | constraints and terms over every attribute, read from a dispatch and switches that fit it (SpecSwitch, SpecReadings) | every attribute evaluated in every interval object; from any fitting switches a feasible assignment is built |
| C73 | constraints on sums of switches against the number of intervals with a flow | C72 with the switches that are on just where there is a flow |
| C74 | the on/off columns of C72_holds, read from the table | SemBins: the columns are the values of the switch variables; sums of switches of which at most one is on |
| C75 | which names a returned result implies | column origins of the table (C37/C54) and the steps of the extraction |
| C76 | what remains of every equation when the solver meets each row only up to eps | per-row near-satisfaction (SemNear) pushed through the same layout as the exact proofs; SpecWithin is the specification |
| C77 | unknown types/functions dropped; meaningless parts; equal function terms | equality of the built programs; C52 in both directions; the two variables of one name against PuLP's check (C54) |
| C78 | the same operation at equipment with a higher efficiency | the old dispatch with the charging scaled down and the saved electricity taken from the import, then exported; optimality of the new run (C53) |
| C79 | the optimum as a function of the prices | the result of one price series is possible with the other (same_site_physical); optimality of both runs; the cost of a fixed result is linear in the prices |
| C80 | Logging.v: the log of optimize and get_accounts as a list of events, OptimizerConfig | the logged functions compute the same as those without log (C80_same_result); the shape of the log (log_shape) |
| C81 | two physical dispatches put side by side, imports and exports netted (`pool`) | the net exchange is bought and sold no worse; C53 |
| C82 | every share dispatched like k times the whole (`divided`); back: the sum of the shares (`merged`) | Change.v scaling per asset, renaming (`mixed`); C53 |
| C83 | one interval of a physical dispatch replaced by an interval of another (`spliced`) | without storage nothing ties intervals together; C53 |
| C84 | the same operation, the grid exchanging the changed load too (`met`) | exchanging more is bought and sold no worse than at its price; C53 |
| C85 | the generator on full (`switched_on`), or replaced by the grid (`switched_off`) | as C84 |
| C86 | two objectives `weighed` differently over the same rows | each optimum beats the other run's operation (C51/C53); adding the two inequalities |
| C87 | the same operation, the boiler (and the valve) making the changed heat too (`moved`) | the change is physical for the other site; C53 both ways |
| C88 | `CheckFrames`: the frames the three checks return and the mapper of `add_totals`; `PropFrames` | the checks with their frames agree with `Extract.check_results`, which a feasible result has passed (`checked`); the contents column by column, then C38 and C07-C09 |
| C89.. | see properties.jsonl and the notes in MANIFEST.json | |

Every property of properties.jsonl is expressible in the model; findings (the code does not do what one expects) are theorems
with the suffix `_refuted`, each a concrete run of the model contradicting the naive statement.

## 3. Trusted base

* **Coq's kernel**; `coqchk` re-checks every module. No axiom is added. `Print Assumptions` lists nothing
  ("Closed under the global context") for the theorems of the MANIFEST; no file uses reals, classical logic or
  functional extensionality. (coqchk's summary of the whole context names seven axioms of
  the standard library's `Coq.ssr.ssrunder`, loaded by `Coq.Setoids.Setoid`; no theorem depends on them.)
  `Audit.v` collects all theorems of the MANIFEST in one term and prints its assumptions.
* **Numbers** are exact rationals. IEEE rounding, overflow and NaN arithmetic are not modelled (NaN exists only where the
  code tests for it: interval data). Tolerances in the code (balance checks, spill threshold, schema bounds) are modelled exactly.
* **PuLP** is the contract of Pulp.v/Optimizer.v: expressions are affine, `+=` adds a row, names are sanitised, duplicate
  names raise, `pulp.value` is None as soon as one variable has no value, a constant objective is solved through a
  `__dummy` variable (`sol_dummy`).
* **The solver (CBC)** is a parameter of `optimize`; nothing is assumed unless stated in the theorem:
  - `honest_solver`: values returned with status Optimal satisfy the program (enough for every physical, reporting and
    accounting property);
  - `sound_solver`: and minimise it (optimality theorems; `solved_within gap` is the version for a solver stopped early);
  - `decisive_solver` / `decides`: it answers Optimal for solvable bounded programs (theorems that optimize succeeds);
  - `blind`: its answer does not depend on Python object identities (C47 only; CBC reads a file of names and rows. Any
    sound solver can be made blind: `Blind.blindly`).
  Concrete solvers meeting these contracts on the examples are in Lucky.v and Certified.v.
* **pydantic 2.8 / pandas / pandera / numpy** are modelled as far as the code uses them: constructors with validation
  (smart unions: a valid dictionary becomes a ConstraintTerm), a table as a list of named columns, substring column filters,
  row sums, schema bounds, `np.tile`-like repetition, random numbers as an arbitrary source within range.
* Anything the model leaves out returns the error `Unmodelled`, never a success, so a theorem about a returned result never covers it.

## 4. Not modelled

the drawing done by plot.py, the text printed by debug.py and by the logger (what debug.py reads is modelled in Plot.v, which messages the logger shows in Logging.v); IEEE rounding; texts that pydantic would
convert to numbers (`Unmodelled`); custom interval data holding strings; custom interval data called `idx`; NaN in scalar
configuration arguments; `Site.optimize` keyword plumbing beyond the arguments listed in Pipeline; wall-clock effects of
OptimizerConfig (they appear as freedom of the solver).

Simplifications are stated in the comment of the definition concerned; the main ones: labels of function terms print
rationals as n/d where Python prints floats; the asset's own `freq_mins` (stored, never used when optimizing) is left out.

## 5. Tests of the theorems

seeded/LOG.jsonl: one line for each wrong program tried (the definition edited, the edit, the claim it breaks, the lemmas and
theorems that stopped proving, the theorems tightened as a result). An edit is applied to a scratch copy, everything is
rebuilt, every proof that breaks is cut out so that the rest can be tried too, and the theorems depending on it are
counted as failed.
