# Formal model of PySlope in Rocq

Source: `/repo` (JesseBonanno/PySlope), read as text, never run.
Model and proofs: `rocq/theories` (Rocq/Coq 8.16.1, logical path `Verif`).

## Approach

* The Python code is modelled function by function as total Gallina functions.
  Every definition cites the file and lines it models.
* Python exceptions are values. Methods run in a state-and-exception monad
  (`Py.M`): an exception keeps the attribute writes made before it, as in Python.
* Materials and loads are objects with identity that slopes mutate in place, so
  they live in a heap (`Objects.heap`) and slopes hold locations.
* The arithmetic is an interface (`Num.Num`, a record/type class, no functor). The
  model is written once and used at two instances:
  * `RealNum.RNum`, exact reals: theorems about geometry, loads, weights, factors;
  * `FloatNum.FNum`, IEEE-754 binary64 from the standard library's `SpecFloat`
    (computes, no axiom): tests against the repository's own reference values and
    witnesses for behaviour that exists only because of rounding or NaN.
* A user history is a list of API calls (`Api.op`); `Api.run` executes it catching
  every exception; `Api.reachable` are the states of any history on one slope.

## Files

| file | content |
|---|---|
| Num, Py | arithmetic interface; Python values, exceptions, monad, stable sort |
| Validation, Utilities | data_validation.py, utilities.py |
| Objects | Material, Udl, LineLoad and the heap |
| Slope | slope state and editing methods (pyslope.py 241-1013, 2067-2121) |
| Planes | circle/ground intersection, search grid, added circles |
| Analysis | strip weights, slices, ordinary and Bishop factors, analyse_slope, getters |
| Dynamic | analyse_dynamic |
| Api | public calls, histories, reachable states |
| Plot | data of the figures: colours, layer outlines, loads, table, arcs (pyslope.py 2124-2925) |
| Web | from a valid form to an analysed slope and a figure (slope/views.py) |
| Screen | legend (pyslope.py 2754-2833), slider and narrow-screen table (static/slope/charting.js) |
| Inputs | shown and hidden inputs, buttons, slider texts (static/slope/hide_form.js, button_control.js, slider_values.js) |
| Browser | row numbering, PDF link and colour key of the page scripts (static/slope) |
| RealNum, FloatNum | the two arithmetic instances |
| Tests | model run at binary64 on the cases of test_validation_examples.py and test_slope.py (tests; the analyses are evaluated at build time and kept as literals, no theorem uses them) |
| Spec | vocabulary of the property statements, written without the model's functions |
| RealFacts, MonadFacts, ListFacts, KeepFacts | real arithmetic reflection, symbolic execution, lists, before/after relations |
| Invariant, History | what holds after any history (geometry, limits, layers, loads) |
| EditFacts, EditMore, AngleFacts, SlopeFacts, GroundFacts | constructors, geometry, ground line, limits (C01-C11) |
| MaterialFacts, LayerFacts, LayerMore, MatInv | layers (C13-C17) |
| LoadFacts, FitFacts, TwoSlopes | loads, shared objects (C18-C22) |
| OptionFacts, SearchFacts | water, options, life of the results (C23-C30) |
| CircleFacts, PlaneFacts, GridFacts, DemoCircle | circles and the search grid (C12, C31-C34, C52-C54) |
| SoilFacts, SliceFacts, ViewFacts | strip weights, slices, what an analysis works with (C37-C41) |
| FosFacts, FosMore, FosTotal, ScaleFacts | ordinary and Bishop factors (C35, C41-C47, C55) |
| WetFacts, StrengthFacts, FosCode | water and strength monotonicity, convergence (C25, C46, C56) |
| DynFacts, DynMore | dynamic search (C48-C51) |
| PlotFacts, LayerArea, FigureFacts, ShowFacts, PictureFacts | what the figures show and when they can be drawn (C59-C65) |
| GrowFacts, DrawFacts | model size along a history; which histories keep the figure drawable (C64) |
| FaceFacts, HitFacts | searches whose exits lie on the face: no drift, circles found, arcs drawn (C33, C54, C65) |
| WeakFacts, PageFacts | weak clays: a circle with a factor of at most 5, and its page (C69) |
| FirstFacts | the first page, the points sent with a circle, what a visitor sees (C67, C69, C71) |
| CohesiveFacts, LinearFacts, TextFacts | soils without friction and other cohesions (C66); decimals of a load (C76) |
| SoftFacts | soils without any strength (C47), circles with negative dimensions (C03) |
| BrowserFacts, SessionFacts, FormFacts, FormMore | page scripts, requests of a visitor, from a form to its page (C67-C75) |
| AnyFacts, BinaryFacts | what holds in every arithmetic; order and minimum in binary64 (C77-C79) |
| ScreenFacts, InputFacts | legend, slider, narrow screens, inputs and buttons of the page (C80-C85) |
| Report, ReportFacts | text of the dynamic results (C87) |
| Version, VersionFacts | _version.py: reading git describe, the styles of the version text (C88) |
| RoundFacts | exceptions of an analysis and borders of slices in any arithmetic (C36, C39) |
| ReportedFacts | reported factors of circles that lean one way with the iteration never cut short (C57, C58) |
| LayerAny, LoadAny | layers, loads and the water level in every arithmetic; order and removal of layers in binary64 (C89) |
| SizeFacts, Twin, Similar | two slopes of the same shape and different size; the demo slope at every scale (C90) |
| WaterLevel, FloatLevel | two water levels in the same slope; the run in which the higher one gives more safety (C91) |
| MidSum, Tame, SliceLimit | midpoint sums tend to the Riemann integral; functions continuous from each side are integrable; sums with strip and line loads (C92, C93) |
| CutFacts, CutLimit, CutCode, CutOneWay | what the slices add up as functions along the base, the limits of the two sums and of the factors (C92, C93) |
| ArcFacts | chords, midpoint rule and arc length; the factors of a slope in one clay (C94) |
| Surcharge, SurchargeCode, SurchargeDemo, FloatSurcharge | slices with more weight, when that raises the factor and when not; a slope made safer by a load, over the reals and in binary64 (C95) |
| SplitFacts, SplitDemo, FloatSplit | slopes with the same soil at every level and the same load over every stretch; a layer and a strip in two pieces; the binary64 search of a strip and of its halves (C96) |
| Fellenius, FelleniusCode, FloatFellenius | what Bishop's normal force adds to the ordinary resistance, slice by slice; one sand; no friction; a binary64 circle in one soil with the lower Bishop factor (C97) |
| CloseFacts, CloseCode, FloatClose | every turn shrinks the distance from the solution by a factor known from the steepest slice; the steepest slice from the entry of the circle; a binary64 run that stops early (C98) |
| ExactLimit | fixed points of functions that converge: rising, with a bounded rate; a small factor grows at every turn of the integral equation; the two limits can be exchanged (C99) |
| Migrate, MigrateFacts | slope/migrations/0001–0013 and slope/models.py: tables, rows, the five operations of Django, one transaction per migration; which operations can fail and what they keep (C100) |
| OrderFacts, FloatOrder | the analysis under permutations of circles and loads, and with more circles; a binary64 search that gets worse with more circles (C101) |
| Release, ReleaseFacts | _version.py: the keywords of an archive, running git, get_versions (C102) |
| Cli, CliFacts | _version.py: the keywords read out of a file, the registry of handlers; cli.py and manage.py (C116, C117) |
| AcceptFacts | the arguments each call accepts and the exception otherwise (C103) |
| OutlineFacts | the traces of a slope outline are drawn whatever the number type |
| UndoFacts, FloatUndo | a setting after others on its topic; a load or layer assigned and removed; where the model stays wider (C104) |
| RoundTheory | what the binary64 operations return, as real numbers: error of +, -, *, /, sqrt; comparisons are exact |
| NearFacts, SumNear, WeightNear, FosNear | the computed cross-section, slice weight and ordinary factor against the exact ones (C105-C107) |
| CircleNear | the computed width, centres and bases of the slices against the exact ones (C108) |
| BishopNear | one computed Bishop iteration against the exact one; the last step of the loop (C109) |
| WaterNear | the computed water pressure at a base against the exact one (C110) |
| SliceNear | a computed slice against the exact one at the same place: base, top, weight, strength, water (C111) |
| SinNear | sine and cosine of FloatNum (fixed-point series) against those of the reals (C112) |
| AtanNear | arctangent of FloatNum (three half angles, then a series) against that of the reals (C112) |
| AngleNear | cosine and sine of the base of a slice against h / r and (cx - x) / r (C112) |
| TanNear | pi, radians and the tangent of a friction angle (C112) |
| FactorNear | signs of computed sums; slices of exact numbers and the ordinary factor of a circle against the quotient of their sums (C113) |
| TurnNear | a Bishop iteration on slices near exact ones; what the stopping test says about the solution of the exact equation (C114) |
| CrossNear | the common points of a circle and a line, computed and exact (C115) |
| EndsNear | the two points at which a circle cuts the ground, computed and exact (C118) |
| StartNear | the circle laid through two points of the ground, computed and exact (C119) |
| RiseNear | the distances from chord to arc of the turns, computed and exact (C120) |
| EntryNear | where a circle close to a point of a level line cuts the line (C121) |
| Repr | the texts of the objects (C122) |
| ShareFacts, StaleFacts | the numbers that matter, shared objects, circles on unmoved ground (C22, C53, C86) |
| FloatWitness, FloatMore, FloatEdge, FloatFos, FloatPlot | binary64 runs that contradict a stated property |
| Demo | concrete reachable models for the non-vacuity examples |
| Props*.v | final theorems only, each followed by Print Assumptions and an example |

## Trusted base

* The Coq kernel and its VM (`vm_compute` is used for closed witnesses and tests).
* Axioms: those of the standard library's classical reals, as printed under each
  theorem by Print Assumptions (`ClassicalDedekindReals.sig_forall_dec`,
  `ClassicalDedekindReals.sig_not_dec`, `FunctionalExtensionality.
  functional_extensionality_dep`, and `Classical_Prop.classic` where the standard
  library's trigonometry uses it). No axiom of our own.
* The reading of the Python code. Simplifications, each marked at its definition:
  * `numpy.sum` sums pairwise, the model left to right (same real number);
  * `np.maximum/minimum/clip` agree with the model except on NaN;
  * integer options (`slices`, `iterations`, `max_iterations`, `num_circles`) are
    ints; the code does not validate them;
  * Python ints are converted to the carrier (visible only beyond 2^53);
  * numpy's silent 0/0 in the Bishop iteration ends the model run with the
    pseudo-exception `NanProduced`, which no `except` of the modelled code catches;
  * at the reals, `tan` of an exact right angle is the binary64 value
    16331239353195370; sine/cosine/arctangent of the C library are exact;
  * with floats, `x ** 2` beyond about 1e308 and `math.tan/sin/cos` of an infinity
    raise in Python; the model goes on with an infinity or a NaN;
  * the water force of the ordinary method multiplies the same four factors in
    another order (same real number);
  * docstrings are not modelled; in the texts of the objects (Repr) the text of a number is a parameter;
  * `_min_FOS`, `_min_FOS_location`, `_min_FOS_dict` (written, never read), the
    progress bar and the calls of plotly, colour and Django are not modelled;
    whether a string is a colour is a parameter (`Objects.Env`) over which theorems
    quantify;
  * a figure is what is drawn and where; fonts, widths, opacity and hover
    texts are left out, the legend is modelled by itself (Screen); colours of the scale are (segment, step) pairs;
  * a web form is the cleaned data Django hands over; parsing and rendering are not
    modelled; of the scripts only the parts that carry data are;
  * the migrations are those of Django 3.2 on SQLite (the default of the settings):
    each migration is one transaction; a column that stops allowing NULL gets
    `coalesce(column, default)`, a new column gets its default; the length of a text is
    not enforced; rows are lists of values, keys and sequences are not modelled.

## Properties: plan

Real = stated for the exact-real instance; Gen = for every arithmetic instance;
B64 = binary64 instance.

| id | modelled by | proof method |
|---|---|---|
| C01, C02 | `new_material`, `new_udl`, `new_lload` | case analysis on the argument values; both directions (Real) |
| C03 | `assert_strictly_positive_number` | refuted by zero (Real) and NaN (B64); partial: non-negative |
| C04 | `run` over all `op` | invariant preserved by every call, induction on the history (Real) |
| C05 | `init_slope`, `boundary_inputs` | equality of results; `tan`/`atan` identities (Real) |
| C06 | each method | unfolding; refuted for update_boundary_options and set_materials, proved for the others (Gen/Real) |
| C07 | geometry calls | `compute_geom` is a function of the four numbers; induction on the sequence |
| C08 | `external_y`, `external_x` | real arithmetic |
| C09, C10 | `set_analysis_limits` | invariant by induction on histories (Real) |
| C11 | same | refuted for right_x_left alone; proved for the other three |
| C12 | `left_coords`, `right_coords`, `pair_planes` | membership in generated lists; refuted for load-adjacent entries |
| C13 | `set_materials`, `remove_material` | sortedness invariant by induction on histories |
| C14 | `set_materials` | stable sort on distinct keys is permutation invariant |
| C15 | histories | refuted by a short history; holds right after the call |
| C16 | `remove_material` | list reasoning; refuted for depth 0 |
| C17 | `assign_materials` | list reasoning, palette computed |
| C18 | `set_udls`, `set_lls` | invariant `MIN_EXT_L >= 2.5 (offset + length)` by induction on histories (Real) |
| C19 | `remove_while_iterating` | induction; refuted for adjacent duplicates |
| C20 | `set_udls`, `set_lls` | induction on the argument list |
| C21 | heap, two slopes | frame: a call writes only the objects of its slope (Gen) |
| C22 | two slopes | refuted by a witness; identities kept, same section harmless |
| C23, C24 | water calls | direct; history invariant; cos(atan) identity |
| C25, C46 | `ordinary_fos`, `bishop_step` | monotone sums (Real) |
| C26 | options | history invariant |
| C27, C28 | `_search` | history invariant "results empty or equal to the analysis of the current view" (Gen) |
| C29 | `analyse_slope` raising | refuted by a witness; partial: automatic mode exceptions before the loop |
| C30 | `tidy` | sorting lemmas |
| C31 | `cirle_line_intersection` | algebra of the quadratic (Real) |
| C32 | `circle_external`, planes | C31 plus filter/sort reasoning, invariant on individual circles |
| C33 | `generate_planes` | algebra; refuted for later circles |
| C34 | grid counts | integer square root bounds |
| C35 | whole search and analysis path | totality: every raising primitive is shown unreachable (Real) |
| C36 | B64; Gen | refuted by Slope(height=1, length=2.73); in any arithmetic only four exceptions, model kept |
| C37 | `strip_weight` | Riemann integral of the standard library, by induction on layers |
| C38 | slices | telescoping sums (Real) |
| C39 | B64; Gen | refuted by a slice edge; once if neighbouring slices share their border |
| C40 | `base_material` | induction on layers |
| C41, C42 | `ordinary`, `bishop` | refinement of Spec definitions written from the textbook formulae |
| C43 | `bishop_loop` | refuted (iteration limit); partial: early exits |
| C44 | both | sign argument |
| C45 | scaled view | homogeneity through all iterations |
| C47 | B64/Real | refuted: NaN |
| C48-C51 | `analyse_dynamic` | loop invariant over the recorded results; refutations for C50 |
| C52, C54 | added circles, search circles | membership; C54 refuted at B64 |
| C53 | stored end points after an edit | refuted at B64; true while the ground does not move |
| C55, C56 | `bishop` on circles that lean one way | monotone sequences, explicit bound (Real) |
| C57, C58 | reported factor | refuted at B64 |
| C59 | `layer_outlines` | shoelace sums against Riemann integrals, induction on layers (Real) |
| C60 | `fos_hue`, `plane_hue` | the table computed on integers, rounding lemmas (Real) |
| C61 | `arc_points` | trigonometric identity, triangle inequality, monotone cosine (Real) |
| C62, C63 | `plot_critical`, `plot_all_planes`, `plot_boundary` | symbolic execution, membership (Real) |
| C64 | `plot_boundary` | exact condition; history invariant; refuted for three histories |
| C65 | figures after an analysis | exact outcome; refuted: empty arc, no circle, negative factor |
| C66 | `bishop` at friction 0 | closed form of one step, fixed point, C35 (Real) |
| C67 | `create_slope` (views.py) | phases of the setup calls by induction on the rows, frame relations (Real) |
| C68 | `web_analysis` | C35 and C66 on the built model; refuted by nine loads |
| C69, C70 | `post`, `report`, `updateFOS` | C65, ranked lists (Real) |
| C71 | `serve`, `visit` | session invariant by induction on the requests (Gen) |
| C72 | `analyse_dynamic` with a Decimal | case analysis of the trials (Gen) |
| C73, C74 | page scripts | induction on the clicks; refuted for more than ten rows and for the link |
| C75, C76 | `js_round`, `get_precision` | rounding lemmas (Real); induction on the text |
| C77 | `run` over all `op` | invariant by induction on histories (Gen) |
| C78 | `analyse_slope`, `tidy` | order of `spec_float` as a lexicographic key, insertion sort (Gen/B64) |
| C79 | `set_external_boundary`, `analyse_slope` | refuted by computed runs (B64); partial: case analysis (Gen) |
| C80 | `legend_cells`, `legend_labels` | the colour dictionary in tenths, rounding (Real); refuted by 1.27 |
| C81 | `on_event` | induction on the events, text comparison (Gen), C70 (Real) |
| C82 | `mobile_table` | colours after `set_materials` kept by the later calls, sorted permutations (Real); refuted by two rows |
| C83 | `shown`, `clean`, `create_slope` | case analysis of the check boxes (Gen); C67 for shown inputs (Real); refuted by an emptied hidden input |
| C84, C85 | `changes`, `drags` | induction on the events; C84 refuted by an added row |
| C86 | `same_numbers`, `analyse_slope` | the view with names removed gives the same loop |
| C87 | `print_dynamic_results` | reading the text back; fractions by computation, whole part by DecimalString; refuted from 10 on |
| C88 | `parse_describe`, `render` | splitting and joining strings; the plus sign separates tag and rest |
| C89 | `exec`, `reachable` at any `Num T` | the invariant of layers restated over an abstract order, which binary64 without NaN is |
| C90 | `bishop`, `analyse_slope` | every quantity of a slice is multiplied by a power of the scale; partial, refuted without the condition because points closer than a centimetre count as one at every scale |
| C91 | `water_at`, `bishop`, `ordinary` | the pressure at every slice falls with the level when H is 1 or the level is not above the toe; refuted otherwise, because H is applied only where the face is under water |
| C92 | `ordinary`, `slices_of` | the sums are midpoint sums of functions that are continuous from each side; loads are added exactly, each line load falls into one slice |
| C94 | `ordinary`, `bishop`, `slices_of` | 2 cos σ sin δ against 2δ cell by cell, convexity of 1/cos between neighbouring midpoints, squeeze in the limit |
| C95 | `set_udls`, `set_lls`, `slices_of`, `ordinary`, `bishop` | F sin α against tan φ / m_α slice by slice (they compare as F sin α and tan φ cos α); fixed points of turns that shrink ratios; refuted by a veneer of sand over mud |
| C96 | `slices_of`, `base_material`, `strip_weight`, `bishop`, `analyse_slope`, `left_coords` | a slice is determined by the unit weight as a function of the level, the soil at its base and the loads over it; refuted for the automatic search of a strip in two pieces |
| C97 | `ordinary`, `bishop`, `bishop_loop` | the first turn differs from the ordinary factor by a sum over the slices, and the iteration is monotone; for sand the terms of the sum are squares; witnesses of a lower Bishop factor for two soils (exact) and one soil (binary64) |
| C98 | `bishop_loop`, `bishop_step` | difference of two turns slice by slice: share(x) * h(y) / y * (x - y), and at the solution the h(y) / y add up to the driving moment |
| C99 | `bishop_loop`, `slice_data` | G(y)(y + k)/y falls, G rises: the fixed points of G_n tend to that of G; R completeness gives the limits as functions, no choice axiom |
| C100 | slope/migrations, slope/models.py | Gen: rows are kept operation by operation along the schema; the checks that an operation is harmless are computed on the schema alone; the ninth migration is the only one that can be refused |
| C101 | `analyse_slope`, `fos_loop`, `tidy`, `entry_exit_planes`, `add_single_circular_plane` | every factor depends on its circle alone, so permuted lists give permuted results, and two sorted permutations carry the same keys |
| C102 | `git_versions_from_keywords`, `run_command`, `git_pieces_from_vcs`, `get_versions` | splitting the joined names gives them back; the first fitting name of a sorted list is the least; the rest by the outcome of each command |
| C103 | `exec` of every call but the analyses, `Validation` | the effect of each call on a reachable state is known in closed form; its result type decides |
| C104 | `exec` of the settings and removals, `only_numbers` | every call on a topic keeps the rest of the state; the removal gives back the numbers the analysis reads |
| C105 | `compute_geom`, `assign_materials`, `external_y` at FNum, `FR` | error of each operation, then linear arithmetic over the reals |
| C106 | `make_slice`, `strip_weight`, `udl_on`, `ll_on` at FNum | every term is non-negative, so the relative errors of the terms and of the additions add up (induction on the lists) |
| C107 | `ordinary_fos` at FNum | the errors of the terms add up relative to the gross sums; then the error of a quotient |
| C108 | `slices_of`, `linspace`, `slice_bottom` at FNum | error of each operation; a square root of an error d moves by at most sqrt d, and by d / h where the root is h |
| C109 | `bishop_step`, `bishop_loop` at FNum | the error of a quotient of two numbers known up to errors, summed over the slices |
| C110 | `water_u` at FNum | the subtraction has a small error relative to the exact difference, then two products |
| C111 | `slices_of`, `make_slice` at FNum | the errors of C105, C106, C108 and C110 put together; soil, water and layer change little when base and top do |
| C112 | `natan`, `nsin`, `ncos`, `ntan`, `npi` at FNum; `make_slice`, `new_material` | alternating series and half angles give the functions; a relative error of the quotient moves the arctangent by less than it moves the quotient |
| C113 | `ordinary`, `ordinary_fos`, `slices_of`, `make_slice` | the errors of C111 and C112 are carried through the resistance and the pull of a slice, the sums and the quotient |
| C114 | `bishop`, `bishop_loop`, `bishop_step`, `slices_of`, `make_slice` | the errors of C113 are carried through the terms of the iteration; the stopping test and the slope of the exact step bound the distance to the solution |
| C115 | `cirle_line_intersection`, `circle_external` | errors of sums, products, the root and the quotient are carried to the coordinates; Q keeps the root away from zero |
| C116 | `git_get_keywords`, `search`, `upto_last_quote`, `register` | the two recursions of the pattern are shown equal to a relation on texts (leftmost, longest); the fold over the lines to the last fitting line |
| C117 | `run_django_server`, `cli`, `main` | induction over the row of commands and over the turns |
| C118 | `circle_external`, `first_two`, `top_hits`, `bot_hits`, `mid_hits`, `drop_close` | C115 decides every comparison: sorting, the ranges of the stretches and the distance of 0.01 |
| C119 | `start_circle`, `circle_radius_from_abcd`, `circle_centre`, `mid_coord`, first turn of `circles_loop` | error bounds of the angle of the chord, the half chord, the radius and the centre in turn |
| C120 | `start_circle`, `circles_loop`, `generate_planes` | error bounds of the first radius, the root and their difference; induction over the turns |
| C121 | `generate_planes`, `circle_external` | C118 and C120; a power-of-a-point identity for the level lines |
| C122 | `material_text`, `udl_text`, `lload_text`, `slope_text` | a text is cut at the first or the last occurrence of a separator the numbers do not contain |
| C93 | `bishop`, `bishop_step` | every turn converges when the value put in converges; the stopping rule settles because the comparisons are strict in the limit |
