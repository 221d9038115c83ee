# Formal model of graphblas-algorithms in Rocq (Coq 8.16.1)

## 1. Layout

The development is `rocq/theories` (logical name `Verif`), standard library only, no axioms.

| layer | files | contents |
|---|---|---|
| GraphBLAS containers and operations | `Base` (lemmas `BaseProofs`) | `Vector`/`Matrix` as sparse, masks, masked writes, `vxm/mxv/mxm`, reductions, select, extract, assign. The *documented* semantics of python-graphblas. **Trusted**: it models the library the project calls, not the project |
| graph object, node keys | `Model_Graph`, `Model_Keys`, `Model_Containers`, `Model_Utils` | the graph record, `key_to_id`, the conversions of `classes/_utils.py`, `NodeMap/NodeSet/VectorMap/VectorNodeMap/NodeNodeMap`, `nxapi/_utils.py` |
| property cache | `Model_Cache` | `classes/graph.py`, `classes/digraph.py`, `classes/_caching.py`, `get_property/get_properties`, branch by branch, in a state-and-exception monad `M` |
| algorithms and their nxapi wrappers | `Model_Bfs`, `Model_Weighted`, `Model_Dense`, `Model_Cluster`, `Model_Measures`, `Model_Operators`, `Model_Ego`, `Model_Linalg`, `Model_Rank`, `Model_Iso` | the functions of `algorithms/`, `linalg/`, `generators/` and `nxapi/`, in the same monad |
| interface | `Model_Nx`, `Model_Convert`, `Model_Public` | `from_networkx`, `to_networkx`, `interface.Dispatcher`, `to_graph` & co., `not_implemented_for` |
| objects and in-place updates | `Model_Effects`, `Model_EffGetters`, `Model_EffAlgos` | a second model of the same functions that keeps only which objects are made, shared, updated in place, cached and handed out (C73) |
| specifications | `Spec*` | node keys, edges, walks, distances, weighted walks, triangles, squares, trusses, ranks, dict/set laws, written on the *edge relation and node list only*, without the model's matrix operations; and what it means for a call to answer (`Spec_Run`) |
| proofs | `*Proofs*`, `*Math*`, `CacheHist`, `Bfs`, `Walks` | lemmas |
| properties | `Props_*` | the theorems named in `MANIFEST.json` (`Cxx_...`), each with `Print Assumptions` and a concrete non-trivial `Example` meeting its hypotheses |
| concrete graphs | `Concrete` | `mkg dir n edges` etc., for the examples and the refutations |

Every model definition carries a comment with the file and lines it models; simplifications are
stated there and collected in section 2.

### Representation
* Vector of size n: `list (option V)`; `None` = no entry. Matrix: number of columns + rows. Equal
  entries = Leibniz equal.
* A graph: directed flag, matrix, dtype class (bool/unsigned, int, float), the `ss.is_iso` flag, and
  `key_to_id` as an association list in insertion order. Node keys are integers or strings (both occur
  mixed). `is_iso` is an oracle bit of SuiteSparse constrained only by "true implies all stored values
  equal"; graphs created by the code get the flag from an arbitrary oracle `orc`.
* `gwf G`: matrix square, `key_to_id` a bijection from its keys to 0..n-1 (in any order), undirected
  implies symmetric, non-negative dtype implies non-negative values. Every constructor the model covers
  (from_networkx, the operators, ego_graph, k_truss, ...) is proved to yield `gwf`.
* A cache is a typed dictionary. `Inv G s` = "every cached entry is the value its name denotes" (`den_*`
  in `Spec_Cache`, written directly on the matrix entries). `InvF G false s` is the weaker invariant that holds even after
  the one defect that writes a wrong `has_self_edges` (`total_degrees+` cached first, digraph.py 367-368).
* `answers G m R` (`Spec_Run`): from *every* state with `Inv`, the call's outcome satisfies `R` and `Inv`
  holds afterwards, also if it raised. So theorems hold after every history of other calls: the empty
  cache satisfies `Inv` and Props_Session (C69) composes the calls. `answers_td` /
  `answers_ndok` / `answers_iso` are the variants for calls that touch the defective cache entries
  (total_degrees+, has_negative_diagonal, iso_value); each says in which states the claim holds.
* A statement quantified over "results" speaks of the returned container through lookups, lengths and
  iteration (`is_set`, `is_map`, `is_graph` in `Spec`).

## 2. What is trusted, what is simplified, what is not modelled

### Trusted base
* Coq's kernel 8.16.1 and the standard library. `Print Assumptions` under each property theorem prints
  "Closed under the global context": no axiom, not even one of the standard library's. (`vcheck` lists
  seven standard-library names, `ssr` `Under_rel`; they are declared by library files that get loaded, and no theorem uses them.)
* The reading of the source, cited definition by definition, and these assumptions on python-graphblas:
  * `v & A` pairs v[i] with row i, `A & v` pairs v[j] with column j; infix `*`, `/` work on the
    intersection of structures; infix `+`, `-` on the union with 0 for the missing operand; vector op
    scalar touches present entries only (flag `fl` in Model_Rank where this matters: both readings proved);
  * `C(mask, replace) << T`, `C(mask) << T`, `C(~mask)`, accumulators, `C[I,J] = B`: the GraphBLAS spec;
  * `binary.any` / `any` may return either operand: oracles `pick`, `pk`; `any` *reductions* in the cache are
    modelled as the maximum;
  * comparisons with an empty Scalar are falsy, `.get(0)` on an empty Scalar is 0, arithmetic with an empty
    Scalar raises;
  * whether `Matrix` has a method `reduce` (it has not) is the parameter `mhr`; whether a numpy scalar is
    accepted as an index by extract is the parameter `si`; theorems hold for both settings unless stated.
* Oracles, i.e. arbitrary functions the theorems quantify over: `cbrt`, `sqr` (cube and square roots; with
  the defining equation as a hypothesis where the claim needs it), `pyfloat` (python's `float()` of a
  string), `orc` (iso flags of new matrices), `pick`/`pk` (binary.any), `em` (empty-vector behaviour in
  pagerank), `itemsize`.

### Simplifications
* Weights are unbounded integers `Z`; ratios are `Q` or `Qc`. **Overflow, float rounding, NaN and inf are not
  modelled** (inf only as the fill value of floyd_warshall_numpy: `zinf`). Division by zero inside vectors
  is not modelled: weighted clustering assumes the largest weight is not 0, linear algebra assumes non-zero row/total sums
  (`rows_nonzero`, `total_nonzero`). bool-typed sums are integer sums.
* Generators are run to the end (their yields are a list). `while` loops carry fuel: `None` means the fuel did
  not suffice, and termination theorems give a bound (k_truss: |V|^2 + 1 rounds). `for` loops with a static bound
  need none.
* Exceptions: one constructor of `exn` stands for an algorithm-level exception and the networkx exception
  its wrapper turns it into. `EKey`: KeyError / NodeNotFound / NetworkXError for a foreign node; `EAlg`:
  GraphBlasAlgorithmException / NetworkXError; `EValue`: ValueError, also graphblas' EmptyObject; `EConv`:
  ConvergenceFailure / PowerIterationFailedConvergence; messages are not modelled.
* `get_properties` evaluates in priority order; the algorithm models call the getters directly in that order.
* The value models are purely functional. That no in-place write of the source (`<<`, `*=`, `del`, ...) reaches data
  that is still in use elsewhere, i.e. that they may be, is C73, proved on the effect programs of `Model_EffGetters`
  and `Model_EffAlgos`; that those programs list every write of the source was checked by reading.
* `G.reverse(copy=False)` (outside C73), graph/node attribute dicts, `name`s of matrices: not modelled.

### Not modelled
Concurrency (the library is single-threaded), memory use, performance, SuiteSparse internals and `ss.export`
layouts, UDT dtypes, hits with `with_authority` beyond
the algorithm level, the pytest plumbing and dispatch table of `interface.py`, `_version.py`, `scripts/`, drawing.

## 3. How refuted properties are reported
Several properties a user relies on are false of the code at this commit. For each of them there is a theorem
`Cxx_..._refuted` (a concrete well-formed graph, a reachable state, and the wrong answer the model of the
code gives), plus the theorem for the largest domain on which the claim was found to hold. Such properties have status
"partial" in `MANIFEST.json` and the note says what is excluded. Where a proved theorem is weaker than what
is true of the code, its name ends in `_partial`.

## 4. Per-property plan
* **C01, C02**: every getter of `Model_Cache` re-establishes `Inv` and returns the denoted value from any state with `Inv`; induction over histories of get_property calls (`CacheHist`). `Spec_Names.denotes` says what every name means without any of the model's reductions; `meaning_of_names` connects the two and `C01_meaning_partial`, `C02_meaning_partial` state the histories directly in those terms.
* **C03**: masked getters: `msk` of the denotation; same invariant.
* **C04**: the sort by priority is a permutation; results are put back in the order asked.
* **C05, C06**: as C01 for the boolean getters; the unsound shortcuts are refuted and `nd_ok`, `iso_known` describe the states where the answer is right. `Inv` tolerates a has_negative_diagonal stored as True by mistake (only possible with self-edges and negative edges), so that every other theorem also covers the histories that trigger this defect.
* **C07, C08**: loop invariant of the masked vxm search: visited = distance < i, frontier = distance i-1; distances < n by shortening walks (pigeonhole, `Walks`).
* **C09**: the levels matrix row by row equals C08; the chunk loop concatenates (C66).
* **C10**: bidirectional search: frontiers from both ends, first meeting = distance.
* **C11**: C07 plus: everything reachable from the first node; for weak connectivity the search on A and A.T.
* **C12**: same invariant, one layer per round, generators run to the end.
* **C13**: intersection of ancestor sets, repeated descent to a node without successors in it; terminates on a DAG because the set shrinks.
* **C14**: d_k = least weight of walks with <= k edges (`WeightedMath`); cycle removal gives n-1 rounds; negative cycle iff round n still improves.
* **C15**: the early exit on the target is analysed separately; two refutations. Props_PathExact.v characterises the answer on the graphs the claim fails for: which negative cycles and self-loops are noticed.
* **C16**: parents form a shortest-path tree when no negative cycle is reachable and no loop is negative (`PathProofs`); the while loop over parents with fuel n; `Props_PathHist.v` repeats it with the answer of has_negative_diagonal left open, so for every consistent state.
* **C17**: C14 with a virtual source; `Props_PathHist.v` shows for which graphs no history can spoil the answer.
* **C18, C19**: invariant over pivots: least weight over walks through the first r pivots; undirected graphs store only the upper triangle; predecessors by the same invariant, directed only.
* **C20**: SandiaDot products L@L.T, U@L.T masked: every triangle is counted once per corner (`ClusterMath`).
* **C21, C22**: same over an arbitrary commutative semiring, so one proof serves counts and cube-root weights; cache key of average_clustering modelled (`xcache`).
* **C23**: walk counting identities for Q = number of squares (`SquareMath`); chunking.
* **C24**: row/column sums of the triangle-count matrix, histogram per node.
* **C25**: the loop keeps the largest truss as an invariant and strictly shrinks the edge set.
* **C26-C30, C32-C35**: entrywise characterisation of the result matrix, lifted to node keys through `key_to_id` of both operands.
* **C31**: same; the partially overlapping case is refuted.
* **C36-C43**: masked products characterised entrywise; `count`/`total` over node lists.
* **C44-C53**: degree vectors `dvec`: entry at u iff positive; counting lemmas over nodes and pairs.
* **C54**: sorting is canonical on permutations; degrees and triangles are isomorphism invariant; exact characterisation of both tests. Directed fast test refuted; `Props_IsoDir` says which triangles of a DiGraph it counts and characterises its answer for any two graphs.
* **C55**: entrywise, exact rationals, with an extraction lemma for nodelists.
* **C56**: entrywise against the textbook Google matrix; row sums by linearity.
* **C57, C58**: a general power-iteration lemma `power_ok` (first iterate within tolerance or failure) instantiated four times; mass preservation by exchanging sums.
* **C59**: C08/C14 for the ball, then induced subgraph by extraction.
* **C60-C62**: refinement: every history of container operations simulates a history of python dict/set operations (`Spec_Containers`).
* **C63**: round trips on a bijective `key_to_id`.
* **C64, C65, C68**: structural; networkx graphs as dicts of dicts of attribute dicts.
* **C66, C67**: list and rational arithmetic.
* **C69**: one inductive `public` with a constructor per public function; every one keeps `Inv`; induction over sessions.
* **C70**: the specifications depend only on node set, weights and direction; each C-theorem transfers.
* **C71**: Model_Convert: the argument types, the decorator and the three conversions; case analysis on the argument, C64 for networkx graphs, and transfer of the algorithm theorems via 'represents'.
* **C72**: Model_Convert: dispatch = convert_from_nx, call, convert_to_nx; C68 + the operator theorems (Props_Dispatch.v, Props_Dispatch2.v: also ego_graph, k_truss, disjoint_union and full_join; C59, C25, C27, C32) + C64_to_networkx; counterexamples computed.
* **C73**: Model_Effects: a second, imperative model: objects with identity, names, in-place updates, the set of objects graphs hold, exceptions, generators, non-deterministic tests and loop counts; Model_EffGetters / Model_EffAlgos transcribe every getter and public function; EffectProofs: an ownership checker proved sound by induction on executions; the programs pass it by computation. Exceptions shown by runs.
* **C85**: `Props_Triad.v`: is_triad and tournament_matrix against counting and weights.
* **C60-C62, all histories**: `Props_Histories.v`: `run_of` a step relation that also covers foreign keys, fill values and out-of-range positions; the step lemmas of `ContainerProofs.v` plus the foreign-key cases.
* **C87**: `Props_Scores.v`: from the closed forms of C58 (k-fold iterate of the step function), by induction on k and sums over the node list; the square root is a parameter with relative error e.
* **C88**: `Model_Abc.v`, `Props_SetOps.v`: the inherited collections.abc methods written out over the modelled ones; comparisons by counting (a list without repetitions inside another one), operators through _from_iterable, in-place operators by induction on the list of elements with the prefix treated so far.
* **C89**: `Model_AbcMap.v`, `Props_MapOps.v`: items as iteration plus lookup, python's dict equality on lists of pairs, Vector.isequal and Matrix.isequal entry by entry; each equality characterised exactly, then compared with equality of the dicts shown; update by induction on the pairs.
* **C90**: `Model_Exc.v` gives the python, package and networkx exception classes with their bases, maps each modelled exception to its class and models every try/except of nxapi/ as a list of clauses; `Props_Exc.v` composes this with the theorems on the calls (C07-C18, C26-C34, C49, C57, C58), so that the class is stated for every input; issubclass is proved to be inheritance.
* **C91**: `Spec_IsoHist.v` splits the public functions of `Spec_Session.v` into those that ask for is_iso and the others, and defines arbitrary sessions; `IsoHistProofs.v` proves for every call which facts about the two cache entries is_iso and iso_value it preserves; `Props_IsoHist.v` derives, for all sessions, that an unanswered iso_value after is_iso was answered False makes pagerank and katz_centrality raise for ever, and that in every other session the theorems of C57 and C58 apply.
* **C92**: `Model_Public.v` gives, for every public function, its decorator, the conversion it uses, the attribute it tells the conversion to read, and the work; `Spec_Public.v` defines valid arguments, what is refused, and the graph an argument stands for; `Props_Public.v` lifts each function's theorem through three lemmas (any graph, directed only, undirected only) built on C71.
* **C93**: `Model_Lazy.v` models a suspended generator as an inductive type (next(): end, raise, or yield and a new suspension) and writes the three generator functions in it; `Spec_Lazy.v` defines every way of consuming one (`pulls`) with arbitrary sessions in between; `Props_Lazy.v` proves a rule for each generator construct under an invariant of the cache, applies them with the theorems of C09, C12 and C14, and lifts the result to any argument as in C92.
* **C94**: `Model_Multi.v` adds multigraphs on top of the public functions: networkx multigraphs (dict of dicts of dicts), library multigraphs (a flag beside the graph), the decorators with both words, the functions that ask `is_multigraph`, the operators and the dispatcher; `Spec_Multi.v` says what a multigraph stands for (summed parallel edges); `Props_Multi.v` lifts every C92 theorem through one lemma per kind of conversion and proves the counting functions directly; the places where parallel edges are lost are `_refuted`.
* **C95**: `Model_Attrs.v`: a heap of graph objects with attribute dicts and of mutable lists, and the operations a program has; the matrices stay in `Model_Graph.v`. `Spec_Attrs.v` says what is seen of an attribute and which graphs an operation names. Independence is proved for every history by an invariant: the lists reachable from one group of graphs are not reachable from the others. Deep copies stop at one level (values are numbers, strings or lists of numbers).
* **C86**: `Props_OpCalls.v`: `nx_union` etc. in `Model_Convert.v` compose `to_graph` on both arguments with the operator; each theorem composes C71 with the C26-C34 theorem.
* **C74-C79, C81-C84**: laws between calls: `seen G m o` = call m after some session of public calls has outcome o; each law follows from the C-theorems of the functions involved plus list counting (sums over pairs and triples, `Props_Counting`), so it holds for calls made at unrelated points of unrelated sessions.
* **C80**: same for the operators, which take no cache: `same_graph` compares direction, nodes and weights.
