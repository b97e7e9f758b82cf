# Formal model of pymarket in Rocq (Coq 8.16.1)

The model is in `rocq/theories`. It is executable Gallina that mirrors the Python functions branch by
branch; every definition cites the file and lines it models. The theorems in `Properties*.v` are about
this model. The only tie between model and code is the reading recorded in the citations, plus the
replayed documentation examples in `Conform.v` and `ConformDocs.v` (tests, not proofs).

## 1. How the code is modelled

* **Numbers.** Python/numpy floats are exact rationals `Qc` (canonical rationals of the standard
  library: Leibniz equality, computable). Curves and clearing prices, where the code itself produces
  `inf`, use `num = Fin q | PInf | NInf | NaN` with IEEE comparison and arithmetic (no signed zero).
  The consequences of rounding are studied separately, see section 5.
* **DataFrames** are lists of rows; the pandas index label is a field of the row.
* **Sorting.** `sort_values` uses an unstable sort. The model takes an arbitrary function together
  with the proof that it returns a price-sorted permutation (record `sorter`); every theorem
  quantifies over all sorters. `Sorter.v` gives an instance.
* **Random generators** are oracles (streams or lists of outcomes); theorems quantify over all.
* **Exceptions** are values of type `res A = Ok a | Err exn`.
* **Loops** (`while`) are recursion on explicit fuel returning `Err OutOfFuel`; theorems show that this
  value is never returned.
* **LP solver** (pulp/CBC) is an oracle returning status, objective and values for the program the code
  builds. Its specification `solver_ok` (an optimum is returned whenever one exists) is a hypothesis of
  the theorems using it; existence of optima is proved (C38) and `Solver.v` constructs a solver that
  satisfies the specification, so the hypothesis is satisfiable.
* **Mutable arguments** become returned values (for example the reservation price dictionary).

## 2. What is modelled and what is not

| code in /repo | model |
|---|---|
| `bids/bids.py` BidManager | `ModelBase.v` |
| `bids/demand_curves.py` (all functions) | `ModelCurves.v` |
| `bids/processing.py`, `transactions/processing.py` (all functions) | `ModelMerge.v` |
| `transactions/transactions.py` | `ModelBase.v` |
| `utils/decorators.py`, `mechanisms/muda_auction.py` (all functions) | `ModelMuda.v` |
| `mechanisms/huang_auction.py` (all functions) | `ModelHuang.v` |
| `mechanisms/p2p_random.py` (all functions) | `ModelP2P.v` |
| `mechanisms/mechanism.py`, `market.py` | `ModelMarket.v`, `ModelStats.v` (`statistics`) |
| `statistics/*.py` (all functions) | `ModelStats.v` |
| `datasets/uniform_bidders.py` | `ModelDatasets.v` |
| `docs/new_mechanism.ipynb` (the mechanism a user is taught to write) | `ModelUniform.v` |
| `plot/*.py`, `Market.plot`, `Market.plot_method` | `ModelPlot.v` (the data handed to matplotlib and networkx) |

Not modelled:

* binary floating point in the main model (see section 5 for what is known about it);
* pandas column types and index objects, except for their two visible effects (C84: the float `buying`
  column of a merged table with one side; C85: `DataFrame.apply(axis=1)` on a table without rows);
* `pulp` internals (the oracle above), its temporary files, solver failures and time limits;
* non integer `prec` arguments of `merge_same_price` (numpy raises TypeError);
* how matplotlib and networkx render the data they are given (colours, positions, files);
* values no caller of the documented API passes: NaN or infinite prices and quantities (except NaN and infinite
  prices and quantities in peer to peer trading, see C95, and prices in the Huang auction, see C99), non numeric
  fields, tables that repeat index labels (theorems say which labels they need).

## 3. Plan per property

| id | what is modelled | how it is proved | main proof files |
|----|------------------|------------------|---|
| C01 | market session, all operations | induction over the operation list | StoreFacts |
| C02 | TransactionManager | induction over operations | StoreFacts |
| C03, C04, C05 | curve construction over any sorter, step evaluation | induction over sorted lists; the specification is aggregate demand and supply | CurveFacts |
| C06, C07 | `intersect_stepwise` on arbitrary monotone arrays | monotone functions, scan loop invariant | IntersectFacts, CurveTop |
| C08 - C13 | `huang_auction`, `update_quantity` | water-filling loop invariant, sortedness | UpdateFacts, HuangFacts |
| C14 - C18 | merging, splitting, fresh identifiers | induction, permutation arguments; the fee branch is refuted | MergeFacts, HuangMarketFacts |
| C19 - C27 | `muda` and helpers, `check_equal_price` | greedy filling is an optimal allocation; externality argument; refutations by witness | MudaSide, MudaHalf, MudaSolve, MudaOutcome, MudaTruth, MudaPrice, MudaErrors, MudaTop |
| C28 - C33 | `p2p_random` with a random oracle | loop invariants over rounds and trades; maximal matching gives half of the volume | P2PFacts, P2PTrades, CoverFacts |
| C34 - C39 | statistics, linear programs, solver oracle | accounting identities, weak duality, transportation lemma | StatsFacts, FairFacts, FairRuns, AllocFacts, LPFacts, StatsTop, Solver |
| C40, C42 | Market | case analysis, induction over histories | MarketFacts, MoreFacts |
| C41 | `generate` with an oracle for choice without replacement | arithmetic | DatasetFacts, MoreFacts |
| C43 | independence of ties and order | uniqueness of sorting with distinct prices; refuted with ties | SortFacts, MudaWitness |
| C44 | `get_value_stepwise` | list induction | CurveTop |
| C45, C46, C47 | Huang price setters, rationing, incentives | competitive quantity; comparison of two runs | HuangTop, HuangTruth, HuangMarketTop, HuangMarketTruth, HuangWitness |
| C48 | p2p results = complete schedules | simulation in both directions | P2PSchedule |
| C49 | exact competitive price | marginal bids | PriceExact |
| C50 | MUDA IndexError | bounds of the fee array | MudaIndex |
| C51, C52 | cut of a side; extended numbers | list induction; case analysis | MoreFacts |
| C53, C54 | uniform price mechanism; p2p with one pair | welfare through a clearing price; symbolic run | UniformFacts, UniformTop, UniformWitness |
| C55, C56, C57 | the three mechanisms with every operation rounded | invariants that only use monotonicity of rounding; error analysis by induction | RoundFacts, RoundP2P, RoundHuang, RoundError, RoundMuda, RoundTop, RoundWitness |
| C58, C59, C60 | the data of the figures | curve lemmas of C02/C03; the run theorems of the mechanisms | PlotFacts, PlotGraph, PlotTop, PlotWitness |
| C61, C62, C63 | two runs on corresponding tables | simulation: every function maps corresponding tables to corresponding results | UnitFacts, UnitMech, UnitMarket, UnitStats, UnitTop, UnitWitness |
| C26, C27, C33, C43 | exact forms: when a price exists, which fee is reported, what ties can change | the intersection loop characterised by the step functions; uniqueness of the marginal prices | PriceIff, ExactFacts |
| C64 | two runs on permuted bids | uniqueness of sorted lists with distinct keys; every schedule of p2p is reachable (C48) | MarketOrder, P2POrder, MudaOrder, OrderWitness |
| C65, C66 | prices of any sign, all prices raised | the intersection loop without monotonicity; simulation as in C62 | SignFacts, RaiseFacts, RaiseMech, SignWitness |
| C67 | lies in MUDA under any names | best gain is concave in the quantity, bidders of one side are substitutes, fees as in C22 | AliasBest, AliasTruth, AliasWitness |
| C68 | Huang: traded quantity and welfare against the best allocation; MUDA halves; runs that lose the welfare | duality at a clearing price, sums over one side | HuangLoss, MudaWelfare, EffWitness, PropertiesEfficiency |
| C69 | Huang: losing bids may leave, one-sided additions; statistics: optima under added bids; runs where one more buyer lowers price or trade | comparison of two tables through Marginal, covers and clearing prices | BidChange, BidAdd, PropertiesChange |
| C70 | Market.run("huang") in rounded arithmetic: merging, splitting, prices against unrounded prices, error bounds on quantities and balance; runs in double precision | rounding as monotone idempotent function with relative error; composition of merging, C56 and splitting | ModelRoundMarket, SpecRoundMarket, RoundMerge, RoundMarket, RoundMarketTop, RoundMarketWitness, PropertiesRoundMarket |
| C71 | exact error behaviour of update_quantity, intersect_stepwise, the fee loop, splitting, the linear programs and generate | case analysis; sum against gap as loop invariant; smallest abscissa decides | SpecErrors, ErrorFacts, PropertiesErrors |
| C72 | statistics in rounded arithmetic: errors, exact signs, double precision runs with a loss and a ratio above one | error of a sum of signed machine numbers by induction on the bracketing; equal lists of payments for p2p | ModelRoundStats, SpecRoundStats, RoundStats, RoundStatsTop, RoundStatsMarket, PropertiesRoundStats |
| C73 | exceptions of the mechanisms on arbitrary tables | intersection of curves with unsorted ends; position of the cut in a list with quantities of any sign; number of untried pairs decreases | SpecTables, TableFacts, TableMuda, TableP2P, PropertiesTables |
| C74 | Market.run on bids of any sign | prefixes of a strictly sorted list are the bids at least as good as the last one; groups of quantity 0 are exactly what splitting cannot divide; a bid for nothing does not change demand and supply | SpecShort, MarketTables, MarketZero, MarketTop, PropertiesMarketTables |
| C75 | Runs depend on the book; splitting a bid is neutral | the merged table is a function of the book; the split gives each bid a multiple of its quantity | SpecBook, BookFacts, BookTop, PropertiesBook |
| C76 | uniform price mechanism in floating point | the computed crossing is below both running sums, so only the difference between running and pairwise sums can make a quantity negative | ModelRoundUniform, RoundUniform, RoundUniformTop, RoundUniformWitness, PropertiesRoundUniform |
| C77 | mirror image of a market | the demand curve of the image is the reflected supply curve with the same abscissae, so crossings and cuts coincide | SpecDual, DualFacts, DualHuang, DualMuda, DualP2P, DualTop, DualWitness, PropertiesDual |
| C78 | order between the mechanisms | a price separating demand and supply bounds every compatible allocation by 2c; the halves of MUDA each trade at a price of the other half; a maximal matching exhausts one side at every price | SpecCompare, CompareVolume, CompareMuda, CompareHuang, CompareTop, CompareWitness, PropertiesCompare |
| C79 | prices on another scale | curves keep their abscissae, only comparisons of ordinates are used, so positions agree | SpecOrdinal, OrdinalFacts, OrdinalTop, PropertiesOrdinal |
| C80 | chances of peer to peer trading | averages over all draw sequences; one step of pick_round is a uniform choice among the open pairs; the product over the rounds; symmetric counting for one round | SpecChance, ChanceFacts, ChancePick, ChanceP2P, ChanceOrder, ChanceRound, ChanceTop, ChanceMoney, PropertiesChance |
| C81 | MUDA on average | weighted sums over all flips; independence of the split of buyers and sellers by products; pointwise facts of C19-C25, C64 and C67 lifted; a bijection of the flips for the order | SpecFlips, FlipsFacts, FlipsSplit, FlipsMuda, FlipsOrder, FlipsWitness, PropertiesFlips |
| C82 | MUDA fees in floating point | the fee as a difference of greedy fills, each within a bound of the exact one; fills are Lipschitz in the quantity | SpecRoundFee, RoundFee, RoundFeeHalf, RoundFeeTop, RoundFeeMuda, PropertiesRoundFee |
| C83 | dyadic data in double precision | every intermediate value is a multiple of a step below a bound, so each rounding is the identity; in update_quantity the comparison with the share is decided by a gap of one step | SpecGrid, GridFacts, GridMuda, GridP2P, GridHuang, GridStats, GridTop, PropertiesGrid |
| C84 | KeyError on bids to buy at one price | merged table has one row exactly if all bids share side and rounded price | ModelMarket (lone_buyer, merged_run), SpecMerge (lone_price), HuangMarketFacts, LoneTop, PropertiesLone |
| C85 | ValueError of statistics without trade | the join is empty exactly if no transaction belongs to a bid; p2p: both sides give a first meeting | ModelStats, ModelRoundStats, SpecStats (some_deal), StatsFacts, NoTradeTop, PropertiesNoTrade |
| C86 | errors of the parts in rounded arithmetic; sampling of merged attributes | the loop of update_quantity follows the sorted quantities; ports of C71, C61 | SpecRoundErrors, RoundErrorsTop, PropertiesRoundErrors |
| C87 | rounding does not change who trades and at what price on separated tables | the rounded breakpoints are in the same order as the exact ones, so intersect_stepwise follows the same path; the rationing loop is compared level by level | SpecSep, MoveFacts, SepFacts, SepUpdate, SepHuang, SepPrice, SepMuda, SepTop, SepWitness, PropertiesSep |
| C88 | rounding does not change who meets and trades in peer to peer trading | what a bid has left is the balance of a set of bids it traded with, directly or not; these sets are disjoint, so errors add up to at most n roundings | SpecSep, SepP2P, SepP2PWitness, PropertiesSepP2P |
| C89 | bounded exponents of double precision | sums of doubles are multiples of 2^-1074 and so rounded alike; products and quotients need normal results | ModelBounded, SpecBounded, BoundFacts, BoundP2P, BoundTop, PropertiesBounded |
| C90 | size of the result | a pair still eligible after a round met a neighbour in every round, neighbours are at most n-2; each trade exhausts a bid | SizeP2P, SizeTop, PropertiesSize |
| C91 | the roundings are IEEE rounding | nearest multiple of the step of the binade; smaller numbers are further away; between two even numbers there is a third | SpecDouble, DoubleFacts, PropertiesDouble |
| C92 | better bids do not trade less | serving best first: what is served before the bid shrinks and the total does not fall; for the Huang auction the marginal bids stay the same | SpecMono, MonoFacts, MonoHuang, MonoTop, PropertiesMono |
| C93 | equilibrium, envy, blocking groups | the surplus of the uniform outcome equals the surplus at any clearing price, so every termwise bound is an equality; weak duality for groups; priority and rationing for the auctions | SpecCore, CoreFacts, CoreTop, CoreWitness, PropertiesCore |
| C94 | one bid sent as several, other names | pieces can be spread and gathered in an optimal allocation, so the best gain of a side is unchanged, and it is submodular in the names; the uniform outcome is determined by price levels; chances by counting pairs | SpecSplit, SplitFacts, SplitMuda, SplitTop, SplitUniform, SplitChance, SplitWitness, PropertiesSplit |
| C95 | peer to peer trading over a record of operations; doubles of `Floats.SpecFloat` | loop invariants on masks that mention no number; relation between two arithmetics lifted through the loop; NaN absorbs numpy's pairwise sum; meetings of a round act independently | ModelAny, SpecAny, SpecAnyRel, AnyFacts, AnyTop, AnyRel, AnyNum, AnyInf, AnyLast, PropertiesAny |
| C96 | SpecFloat's operations are `binary64` of the exact results; peer to peer trading on doubles is the rounded model | guard and sticky bit stand for a rational; `finish` by cases on the carry; relation of quantities closed under deals, sums may be infinite | SpecIeee, IeeeRound, IeeeOps, SpecIeeeRun, IeeeAny, IeeeTop, PropertiesIeee |
| C97 | Huang, MUDA, uniform price and statistics on doubles are the rounded model with `binary64` | model with operations as parameters; bounds `m 2^e` closed under sums, differences, products, quotients; sums in numpy's order | ModelOps, SpecOps, OpsFacts, OpsRun, OpsStats, OpsTop, PropertiesOps |
| C98 | `Market.run` and statistics on doubles are the rounded model; no loss and no worse price on doubles from end to end | merging and splitting with operations as parameters; sizes of the outputs of the runs; C57, C70, C72 for `binary64` | ModelOpsMarket, OpsMarket, OpsMarketTop, PropertiesOpsMarket |
| C99 | infinite and NaN prices in the Huang auction: large prices, flooding, NaN bids | neighbouring ends of the two curves between which they change sides; comparison of two tables end by end | ModelWild, SpecWild, WildFacts, WildSort, WildCap, WildTop, WildNan, PropertiesWild |
| C100 | markets made of generated bids: which runs succeed, offsets that prevent trade, the notebook | table of the generated bids; every bid below every ask makes every compatible allocation zero; otherwise the p2p run exhausts a side | SpecGen, GenFacts, GenIdle, GenTop, PropertiesGen |
| C101 | what run('huang') gives up with merged prices | the surplus arguments of C68 for any transactions of the winners, applied to the rounded table; rounding moves each price by half a step | SpecMarketLoss, MarketLoss, MarketLossTop, PropertiesMarketLoss |
| C102 | generated datasets in floating point | a position below the rounded 1/eps is at most 1/eps by monotonicity; two roundings of half the inverse leave room for all bids; relative errors against the step | ModelRoundDatasets, SpecRoundGen, RoundGen, RoundGenTop, RoundGenRuns, PropertiesRoundGen |
| C103 | infinite and NaN prices in MUDA | the bids that accept the price, with infinite prices replaced by a large one, trade in the main model in the same way; fees are sums of terms of one sign | ModelWildMuda, SpecWildMuda, WildMuda, WildMudaHalf, WildMudaTop, WildMudaFin, PropertiesWildMuda |
| C104 | infinite and NaN prices in Market.run('huang') | merging commutes with replacing inf by a large integer; sums over the groups; then C99 on the merged table | ModelWildMarket, SpecWildMarket, WildMarket, WildMarketTop, WildMarketCap, WildMarketNan, WildMarketOnce, PropertiesWildMarket |
| C105 | profits with infinite and NaN prices | sums with and without NaN computed exactly; each joined transaction is of one bid; after the auctions the prices respect the bids; in Market.run('huang') the price of buyers is finite because merged prices differ | ModelWildStats, SpecWildStats, WildStats, WildStatsMaker, PropertiesWildStats |
| C106 | the uniform price mechanism with infinite and NaN prices | the ordinate of the intersection in terms of the last trading bids; both ends compared with the crossing; only comparisons of values matter for positions (as for C99) | ModelWildUniform, SpecWildUniform, WildUniform, WildUniformTop, PropertiesWildUniform |
| C107 | profits after the uniform price mechanism with infinite and NaN prices | each transaction is within the price of its bid (C106), so no deal is worth -inf or less than 0; equal quantities on both sides at one price; inf - inf for the market maker | WildUniformStats, PropertiesWildUniformStats |
| C108 | peer to peer trading with infinite and NaN prices, profits | the run of C95 with exact quantities and extended prices; a transaction list made of pairs; equal lists of payments on both sides, so x - x; gains are NaN, inf or at least 0 | ModelWildP2P, SpecWildP2P, WildP2P, PropertiesWildP2P |
| C109 | the traded volume with infinite and NaN prices | prices are only compared, so the program is that of a capped table (equality of programs); then C36 and C32 | ModelWildVolume, SpecWildVolume, WildVolume, PropertiesWildVolume |
| C110 | no more is traded than can be, with infinite and NaN prices | what the bids get in proportion is an allocation if every buyer accepts every seller (one price, or two in order); allocations of two halves or of successive meetings add up; then C109 | SpecWildVolumeBound, WildVolumeBound, PropertiesWildVolumeBound |
| C111 | who trades after Market.run('huang') with infinite and NaN prices | the two prices of the auction lie strictly between the rounded prices of the traders, and rounding is monotone; then as in C110 | WildVolumeRun, PropertiesWildVolumeRun |
| C112 | peer to peer trading and the traded volume when prices are NaN | the mechanism compares only asks with bids of a pair, so NaN can be replaced by a price out of reach; then the bound for rational prices | WildVolumeNan, PropertiesWildVolumeNan |

No property is considered not applicable.

## 4. Findings: properties the code does not have

Each is a theorem with suffix `_refuted` and a concrete witness computed in the model.

* C07: at a breakpoint common to both curves the ordinate need not clear the market.
* C08: `extra["quantity_traded"]` can be positive although there is no transaction.
* C17: passing fees to `split_transactions_merged_players` raises for every group of two or more bids.
* C18: two interleaved `new_player_id` generators can return the same identifier.
* C26: a user charged in both MUDA halves is reported only the fee of the right half.
* C27: `find_competitive_price` is infinite when buyers and sellers touch without a strict crossing.
* C33: the `active` flag is wrong for bids with quantity zero.
* C34: MUDA fees are added to the profit of the market maker but not taken from the players.
* C39: `percentage_welfare` ignores the reservation prices given; the caller's dictionary is filled in
  place.
* C43: with equal prices the results depend on the order of the bids.
* C47: the Huang auction can be manipulated with two bids, with quantities, or with ties after rounding.
* C50 (characterised): MUDA indexes the fee array by user id, so ids outside `0..n-1` raise IndexError.
* C53: the documented uniform mechanism raises TypeError when there is no strict crossing, is not
  truthful, and can leave out a bid that would gain at its price. C54: p2p is not truthful.
* C55: in double precision a p2p bid can trade more than its quantity, and a buyer can pay more than its bid.
* C56: in double precision `update_quantity` can remove every quantity, then `huang_auction` raises
  ValueError on ordinary bids.
* C57: numpy's `sum` and `cumsum` disagree for eight or more bids, then `get_trading_bids` takes
  `argmax` of an all-False array: one half of MUDA can buy ten times what it sells; a quantity can be
  negative.
* C58: the drawn supply curve falls at its right end when an ask is above 1.2 times the best bid.
* C59: the graph of trades joins bids that met without trading, keeps only the last quantity of a pair of users,
  and chooses the sides by bid identifier instead of user.
* C60: the Huang figure shows an area labelled market profit although nothing was traded.
* C61: `divisible=False` and `time` are stored and never used; all mechanisms split indivisible bids.
* C62: `Market.run('huang')` depends on the unit of price because prices are rounded to five decimals: prices
  below 0.000005 are merged to 0 and nothing is traded.
* C63: MUDA charges fees by position, so renaming users can raise IndexError.
* C64: in MUDA the earlier of two equal bids is served.
* C65: the demand curve ends at price 0, so with negative prices a buyer can pay more than its bid in the Huang auction.
* C66: the same end value blocks trade when the marginal ask is 0 and supply exceeds demand.
* C67: a seller can raise its price by a buying bid under another name in the other half of MUDA.
* C68: in the Huang auction the equal reduction of the long side (update_quantity) takes the same absolute amount from every winner, so a small winning bid is reduced to zero although it has the highest price (buyers 1@100, 6@12, 2@11, sellers 4@2, 4@10: the buyer at 100 gets nothing, the buyer at 12 gets 4).
* C69: one more buyer can lower the competitive price (buyer 1@10, sellers 1@1, 1@4: price 11/2; plus buyer 1@5: 9/2) and can stop all trade of the Huang auction (buyers 3@10, 1@7, sellers 3@1, 2@4 trade 3 units; plus buyer 8@11 nothing).
* C70: through the market, a buyer of 0.7 that is merged with a buyer of 0.5 at the same price gets 0.7000000000000001: the product of the total with the rounded quotient is not the quantity. Bought and sold then differ. Prices stay on the right side of the unrounded price of every bid, even though they are compared after rounding to five decimals.
* C71: update_quantity raises a bare ValueError ("All-NaN slice") as soon as the gap exceeds the total; with user numbers below zero MUDA writes fees from the end of the array, so that users -1 and n-1 overwrite each other.
* C72: after Market.run("huang") in double precision the market maker can lose money: a seller of 10^6 units who serves a buyer of 0.3 is recorded as selling 10^6 - (10^6 - 0.3), slightly more than 0.3.
* C73: negative quantities are accepted by BidManager; if the first buyers by price or the first sellers add up to a negative quantity, the Huang auction and MUDA stop with a TypeError from comparing None with a number.
* C74: a single bid for quantity 0 at a winning price that nobody else names makes Market.run('huang') divide 0 by 0: the transactions of the run have quantities that are not numbers (C74_zero_bid).
* C76: the uniform price mechanism of docs/new_mechanism.ipynb compares running sums with numpy's pairwise sums; with eight buyers of 0.2, 0.1, 0.2, 0.6, 1, 1.3, 0.7 and 1.2 and sellers of 5.3 and 1 the second seller is given a transaction of negative quantity (C76_nonneg_refuted).
* C77: buyers and sellers are treated alike except that the Huang auction reports as quantity_traded the quantity of the buyers before the marginal one even if nothing is traded (huang_auction.py:199-203), and that MUDA takes the buyers as the long side when both sides are equally long, which resets their fees (muda_auction.py:190-224).
* C80: the order of submission has no influence on the chances of peer to peer trading, also when prices are equal.
* C81: with a single buyer or a single seller MUDA never trades; with two buyers and two sellers the chance of any trade is at most 1/4.
* C81: a user with two buying bids gains from reducing the lower one for every random split of the witness, so lying pays for every chance of the flips.
* C82: with eight sellers in a half, double precision MUDA can charge a seller a fee of 9.1 for a trade that gains it 1.35: the total from `sum` exceeds the last entry of `cumsum`, so the cut is placed at the first seller.
* C83: the bids 1.1 / 0.1 / 1.1 are cleared differently in double precision than with the exact values of the same doubles; whole numbers are safe while price times total quantity stays below 2^51.
* C84: `Market().accept_bid(1, 1, 0, True)` followed by `run('huang')` raises KeyError instead of returning the documented empty result: the merged table of a market with one side has a float `buying` column (printed in mechanism.py:115-116), and `.loc` with it looks for a row with label 1.
* C85: `Market.statistics()` raises ValueError whenever the market has no transactions (before the first run, or after a run without trade), because `merged['gain'] = merged.apply(..., axis=1)` (profits.py:87) assigns an empty table to a column; the caller's dictionary has already been changed.
* C87: decisions are stable except near ties. Buyers of 0.1 and 0.9 against a seller of 1: the doubles add up to slightly more than 1 but to 1 in double precision, and the Huang auction makes no trade instead of two; the competitive price changes too (C87_ties_refuted).
* C89: with subnormal prices `p2p_random` can pay a seller less than it asks, since half of the smallest double is rounded to zero. From 2^-1021 on this cannot happen.
* C92: in the Huang auction run by the market it can be better to share a price: a buyer of one unit at 8, together with another of three units at 8, trades half a unit; raising its price to 8.5 it trades nothing (C92_huang_market_refuted), because each price level loses the same quantity. A buyer that asks for more can also end with nothing (C92_huang_larger_refuted).
* C93: when both marginal bids are used up, the uniform price is the middle of their two prices even if unserved bids lie in between. With bids 1@9 and 1@8 and an ask 1@1 the price is 5, and the buyer at 8, who gets nothing, would pay more than the price; this price does not clear the market.
* C94: under the uniform price mechanism the owner of the bid that is served in part gains by sending it in two pieces: with bids 3@9 and 1@8 and asks 2@1 and 3@6 the price is 6 and the seller at 6 gains nothing; sent as 2@6 and 1@6 the price is 7.
* C95: one bid whose quantity is NaN stops peer to peer trading for everybody without an error (`quantities.sum() > 0` is false); two infinite bids that deal have the same effect from the next round on.
* C99: a buy bid at the price `np.inf` ("at any price") for more than is on offer silently stops the Huang auction, because `inf < inf` is false beyond the supply; with a large finite price instead there can be trade. A single NaN bid can stop it too. With negative asking prices a NaN bid can trade at price 0.
* C100: docs/Efficiency and performance.ipynb calls `generate(i, i, 2, 1)`. The third argument is the offset of the *sellers*, so every ask is at least 2 and every bid is below 2: nothing can trade, `run('huang')` makes no transactions, and `statistics()` raises ValueError. With the offsets the other way round there is trade. `generate` can draw quantity 0; if such a bid wins, `run('huang')` divides 0 by 0.
* C101: `run('huang')` rounds prices to 5 decimals before the auction, so bids that differ only beyond that are dropped together when they are marginal. With buyers at 9 and three just above 5 and sellers at 1, 2, 3, 4, it trades 1 unit of 3.5.
* C102: in double precision `generate` can give several bids of a side the same price when the offset is large against the step (offset 2^53, step 1/4). MUDA still runs, since the users differ.
* C103: a half without a crossing has the price `inf`. With rational prices nobody accepts it; a bid to buy at `np.inf` does, and so it buys at an infinite price whenever the other half has no crossing (in particular if that half is empty), and sellers can be charged an infinite fee.
* C104: `Market.run('huang')` silently drops bids with the price NaN, since `groupby` in `merge_same_price` has no group for them. The auction itself (C99) does not drop them and can be stopped by one. With more wanted at `np.inf` than offered nobody trades, also in `Market.run('huang')`.
* C105: a buyer at `np.inf` has an infinite profit in `calculate_profits`. If MUDA trades at an infinite price, the profit of the market maker is NaN (`inf - inf`), while the profits of the players silently leave out the NaN gains. After `Market.run('huang')` the profit of the market maker is always a number.
* C106: in the uniform price mechanism of the documentation a bid at `np.inf` can set the price: if its quantity equals that of the cheapest sellers, all trades have an infinite price, and the price NaN if a seller asks for `-np.inf`. If more is wanted at `np.inf` than is on offer, the mechanism raises TypeError instead of serving the bids in part.
* C107: if the uniform price mechanism settles on an infinite price, calculate_profits gives the market maker NaN, because the sums of both sides are infinite; the NaN deals of the players are left out by `groupby.sum`, so a buyer who pays `inf` for a bid at `inf` has a profit of 0.
* C108: after peer to peer trading with one bid at `np.inf` that deals, calculate_profits gives the market maker NaN, although the same money leaves and enters; with `p_coef = 0` such a deal has the price NaN, although then only the seller's finite price should count (`inf * 0`).
* C110: with sellers below price 0 the demand curve, which ends at price 0, lets bids trade that cannot. After the Huang auction with a buyer at NaN, percentage_traded can be 2. In the uniform price mechanism, with bids 1@5 and 1@-3 and asks 1@-2, 2@-1 and 1@-1, all three sellers are taken for 2 units, the last one gets the negative quantity 2 - 3 = -1, and percentage_traded is 3/2.
* C111: `run('huang')` with asks at -2, -1 and -0.5 and bids at 5 and -3, one unit each: the bid at -3 buys at price 0, and percentage_traded is 2.

## 5. Floating point

`ModelRound.v` has the three mechanisms with every arithmetic operation followed by a rounding: any
monotone, odd, idempotent function on rationals. Sums may be taken in any order and bracketing (record
`adder`), cumulative sums go from left to right. `C55_rounded_model` shows that without rounding they are
the mechanisms of the main model. `ModelFloat.v` defines `f64`, IEEE 754 binary64 to nearest with ties to
even, and `np_sum`, numpy's summation with eight accumulators; the witnesses of C55 - C57 are computed with
them. Simplifications of `f64`: no overflow, no subnormal numbers and no signed zero. `ModelBounded.v` defines
`binary64` with subnormal numbers and a largest number, at which it stays where the machine overflows to infinity;
C89 says where the two agree. C96 proves that the operations and comparisons of Coq's `Floats.SpecFloat` (an
independent definition of binary64) are `binary64` of the exact results up to overflow. C96 (peer to peer trading) and
C97 (Huang's auction, MUDA, uniform price, statistics; `ModelOps.v`) and C98 (merging and splitting, `Market.run` and the statistics of its result; `ModelOpsMarket.v`) show that runs on these doubles are runs of the rounded model with `binary64`. The error bounds of C55 - C88 that assume a relative error for every operation are
about `f64`. Merging bids and splitting
transactions are modelled in rounded arithmetic in ModelRoundMarket.v (C70), with one summation order for numpy
and one for pandas, both arbitrary. C72 does the same for the statistics; the solution of the linear programs is an argument there, because it is computed outside of pymarket.

## 6. Trusted base

* Coq's kernel (8.16.1), and the reading of /repo recorded in the citations with the simplifications
  above.
* No axioms are declared, none of the standard library's are used: `Print Assumptions` under each theorem
  below prints `Closed under the global context`. (`coqchk` lists seven constants of `Coq.ssr.ssrunder`
  because the standard library module is loaded; no theorem depends on them.)
* Hypotheses about the outside world are premises of the theorems, never axioms: `sorter` (record),
  `solver_ok`, ranges of the random oracles.

Theorems (all closed under the global context):

* `PropertiesStore.v`: `C01_bid_identifiers`, `C02_transaction_log`
* `PropertiesCurves.v`: `C03_demand_curve`, `C03_demand_curve_only_buyers`, `C04_supply_curve`, `C04_supply_curve_only_sellers`, `C05_demand_shape`, `C05_supply_shape`, `C06_intersection`, `C06_crossing_unique`, `C06_bid_curves_well_formed`, `C07_ordinate`, `C07_common_end_refuted`, `C07_ordinate_exact`, `C07_ordinate_no_crossing`, `C44_value`, `C44_negative`
* `PropertiesHuang.v`: `C08_huang_conserves`, `C08_quantity_reported_refuted`, `C09_huang_feasible`, `C10_huang_rational`, `C11_huang_traders`, `C12_update_quantity`, `C13_huang_total`
* `PropertiesMerge.v`: `C14_merge_partition`, `C14_power`, `C14_rounding`, `C15_split_proportional`, `C16_market_run_huang`, `C17_split_fees_refuted`, `C17_split_returns_iff`, `C17_fees_unchanged`, `C17_split_fees_partial`, `C18_merged_users`, `C18_generator`, `C18_interleaved_generators_refuted`
* `PropertiesP2P.v`: `C28_p2p_terminates`, `C28_p2p_labels`, `C28_p2p_matching`, `C29_p2p_conserves`, `C30_p2p_price`, `C30_p2p_rational`, `C31_p2p_no_trade_left`, `C32_p2p_half`, `C32_p2p_half_optimum`, `C32_p2p_half_percentage`, `C33_p2p_active`, `C33_p2p_active_zero_refuted`
* `PropertiesMuda.v`: `C19_halves`, `C19_price_from_other_half`, `C20_muda_safe`, `C21_volume`, `C21_priority`, `C22_fees_are_externalities`, `C22_fee_unique`, `C23_fee_bounds`, `C24_truthful`, `C25_not_implemented`, `C25_errors`, `C25_total`, `C26_total_fee_refuted`, `C26_total_fee_partial`, `C27_clearing_price_refuted`, `C27_price_exists_partial`, `C27_price_or_infinite`, `C27_price_clears`, `C43_order_refuted`, `C43_order_partial`, `C43_muda_sort_partial`, `C33_huang_inactive`, `C33_muda_inactive`
* `PropertiesStats.v`: `C34_profits_meaning`, `C34_accounting_refuted`, `C34_accounting_partial`, `C35_nobody_loses`, `C35_p2p_market_zero`, `C36_traded_meaning`, `C36_traded_bounds`, `C37_welfare_meaning`, `C37_welfare_bounds`, `C38_programs_have_optimum`, `C38_maximum_volume`, `C38_maximum_welfare`, `C39_welfare_ratio_refuted`, `C39_dictionary_refuted`, `C39_welfare_ignores_prices`, `C39_dictionary_partial`, `C39_statistics_dictionary_partial`, `C40_run`, `C40_history`, `C40_one_sided`, `C41_generate`, `C42_read_only`, `C42_complete`, `C42_excluded`
* `PropertiesHuangMore.v`: `C45_price_setters`, `C45_price_setters_found`, `C45_runs_iff_price`, `C45_runs`, `C46_rationing`, `C46_market_outcome`, `C47_truthful_in_price_partial`, `C47_market_truthful_in_price_partial`, `C47_two_bids_refuted`, `C47_quantity_refuted`, `C47_market_tie_refuted`
* `PropertiesP2PMore.v`: `C48_every_run_is_a_schedule`, `C48_every_schedule_is_a_run`
* `PropertiesMore.v`: `C49_price`, `C49_no_price`, `C50_half`, `C50_muda`, `C51_cut`, `C51_cut_too_much`, `C51_cut_empty`, `C52_order`, `C52_arithmetic`, `C52_extrema`, `C36_traded_any`, `C40_dispatch`, `C40_unknown`, `C41_grid`
* `PropertiesUniform.v`: `C53_uniform_outcome`, `C53_uniform_market`, `C53_uniform_runs`, `C53_uniform_welfare`, `C53_uniform_percentage`, `C53_uniform_at_least`, `C53_uniform_truthful_refuted`, `C53_uniform_left_out_refuted`, `C54_p2p_pair`, `C54_p2p_truthful_refuted`
* `PropertiesRound.v`: `C55_rounded_model`, `C55_p2p_rounded`, `C55_p2p_quantities`, `C55_p2p_price`, `C55_p2p_price_near`, `C55_p2p_feasible_refuted`, `C55_p2p_rational_refuted`, `C56_huang_rounded`, `C56_huang_imbalance`, `C56_huang_errors`, `C56_huang_total_refuted`, `C56_huang_balance_refuted`, `C57_numpy_sums`, `C57_muda_rounded`, `C57_muda_errors`, `C57_muda_imbalance`, `C57_muda_small`, `C57_muda_balance_refuted`, `C57_muda_feasible_refuted`
* `PropertiesPlot.v`: `C58_curves_drawn`, `C58_demand_shown`, `C58_supply_shown`, `C58_market_plot`, `C58_curves_cross`, `C58_demand_falls`, `C58_supply_rises_iff`, `C58_supply_rises_refuted`, `C59_graph`, `C59_labels_exact`, `C59_layout_partial`, `C59_layout_refuted`, `C59_edges_traded_refuted`, `C59_labels_refuted`, `C60_muda_panels`, `C60_huang_area`, `C60_huang_area_refuted`
* `PropertiesUnits.v`: `C61_attributes_ignored`, `C61_sampling_ignored`, `C61_sampling_free`, `C61_stable`, `C61_indivisible_refuted`, `C62_p2p`, `C62_muda`, `C62_huang_auction`, `C62_huang_quantity`, `C62_huang_price`, `C62_huang_price_refuted`, `C62_percentages`, `C62_profits`, `C63_huang`, `C63_p2p`, `C63_muda`, `C63_muda_refuted`
* `PropertiesExact.v`: `C26_fee_exact`, `C27_finite_iff`, `C27_huang_iff`, `C33_p2p_active_exact`, `C43_marginal_unique`, `C43_finite_order`, `C43_price_values`, `C62_huang_quantity_any`, `C62_huang_price_any`, `C63_huang_any`
* `PropertiesOrder.v`: `C64_moved_exists`, `C64_huang_sort`, `C64_huang_order`, `C64_p2p_order`, `C64_muda_order`, `C64_muda_ties_refuted`
* `PropertiesSign.v`: `C65_huang_total`, `C65_huang_summary`, `C65_huang_rational`, `C65_huang_budget`, `C65_huang_rational_refuted`, `C65_price`, `C65_price_refuted`, `C65_muda_not_implemented`, `C65_muda_errors`, `C65_muda_total`, `C66_huang_raised`, `C66_muda_raised`, `C66_p2p_raised`, `C66_huang_raised_refuted`, `C66_muda_raised_refuted`
* `PropertiesAlias.v`: `C67_truthful`, `C67_group_fee`, `C67_two_sides_refuted`, `C67_two_halves_refuted`, `C67_other_half_refuted`, `C67_two_users_refuted`
* `PropertiesEfficiency.v`: `C68_huang_quantity`, `C68_huang_loss`, `C68_huang_share`, `C68_huang_equal_quantities`, `C68_huang_share_refuted`, `C68_muda_half`, `C68_muda_refuted`, `C68_p2p_refuted`
* `PropertiesChange.v`: `C69_losers_leave`, `C69_determined`, `C69_one_side`, `C69_maximum_volume`, `C69_maximum_welfare`, `C69_price_refuted`, `C69_trade_refuted`
* `PropertiesRoundMarket.v`: `C70_rounded_model`, `C70_merge_rounded`, `C70_price_rounding`, `C70_total`, `C70_returns_refuted`, `C70_market_rounded`, `C70_rational`, `C70_strict`, `C70_strict_general`, `C70_quantity`, `C70_split_rounded`, `C70_shares`, `C70_balance`, `C70_balance_double`, `C70_feasible_refuted`
* `PropertiesErrors.v`: `C71_update_quantity`, `C71_intersect`, `C71_fees`, `C71_split`, `C71_programs`, `C71_generate`
* `PropertiesRoundStats.v`: `C72_rounded_model`, `C72_profits_error`, `C72_market_error`, `C72_accounting`, `C72_ratios_error`, `C72_no_loss`, `C72_huang_no_loss`, `C72_muda_no_loss`, `C72_p2p_no_loss`, `C72_p2p_no_loss_refuted`, `C72_huang_market`, `C72_huang_market_refuted`, `C72_ratio_refuted`
* `PropertiesTables.v`: `C73_huang`, `C73_uniform`, `C73_muda`, `C73_p2p`
* `PropertiesMarketTables.v`: `C74_huang_raises`, `C74_huang_sound`, `C74_huang_zero`, `C74_zero_bid`, `C74_p2p`, `C74_unchanged`
* `PropertiesBook.v`: `C75_book`, `C75_split`
* `PropertiesRoundUniform.v`: `C76_rounded_model`, `C76_uniform_rounded`, `C76_uniform_runs`, `C76_uniform_running_sums`, `C76_uniform_double_small`, `C76_uniform_any_sums`, `C76_nonneg_refuted`, `C76_balance_refuted`
* `PropertiesDual.v`: `C77_price`, `C77_huang`, `C77_huang_quantity_refuted`, `C77_muda`, `C77_muda_fees_refuted`, `C77_uniform`, `C77_p2p`, `C77_profit`, `C77_orders`
* `PropertiesCompare.v`: `C78_best_exists`, `C78_uniform`, `C78_volume`, `C78_huang`, `C78_muda`, `C78_p2p`, `C78_p2p_ends`, `C78_run`, `C78_p2p_most`, `C78_percentage`, `C78_muda_huang_unordered`, `C78_huang_uniform`, `C78_huang_uniform_none`, `C78_muda_gain_refuted`, `C78_p2p_gain_refuted`
* `PropertiesOrdinal.v`: `C79_huang`, `C79_huang_percentage`, `C79_p2p`, `C79_p2p_run`, `C79_uniform`, `C79_volume`, `C79_muda_refuted`
* `PropertiesChance.v`: `C80_law`, `C80_exists`, `C80_never`, `C80_first_meeting`, `C80_first_round`, `C80_order`, `C80_twins`, `C80_money`
* `PropertiesFlips.v`: `C81_rand`, `C81_swap`, `C81_swap_mean`, `C81_truthful`, `C81_participation`, `C81_two_bids_refuted`, `C81_two_sides_refuted`, `C81_trade_chance`, `C81_trade_chance_same`, `C81_order`, `C81_order_quantity`, `C81_order_refuted`
* `PropertiesRoundFee.v`: `C82_fee_close`, `C82_fee_double`, `C82_fee_exact`, `C82_no_error`, `C82_fee_gain_refuted`
* `PropertiesGrid.v`: `C83_double_grid`, `C83_muda`, `C83_p2p`, `C83_uniform`, `C83_huang`, `C83_huang_exact`, `C83_profits`, `C83_shares`, `C83_whole`, `C83_curves`, `C83_tenths_refuted`, `C83_size_refuted`
* `PropertiesLone.v`: `C84_exactly`, `C84_unchanged`, `C84_empty_result_refuted`, `C84_one_sided`, `C84_sellers`, `C84_one_more`, `C84_same_price`, `C84_rounded`
* `PropertiesNoTrade.v`: `C85_profits`, `C85_profits_rounded`, `C85_exactly`, `C85_effects`, `C39_statistics_dictionary`, `C39_optimum_dictionary`, `C85_shares`, `C85_before_run`, `C85_p2p`, `C85_after_run_refuted`
* `PropertiesRoundErrors.v`: `C86_update_quantity`, `C86_intersect`, `C86_trading_bids`, `C86_fees`, `C86_p2p_labels`, `C86_split`, `C86_sampling`
* `PropertiesSep.v`: `C87_huang`, `C87_price`, `C87_muda`, `C87_uniform`, `C87_ties_refuted`
* `PropertiesSepP2P.v`: `C88_p2p`, `C88_ties_refuted`
* `PropertiesBounded.v`: `C89_grid`, `C89_agrees`, `C89_sums`, `C89_error`, `C89_free`, `C89_muda`, `C89_uniform`, `C89_p2p_grid`, `C89_huang`, `C89_whole`, `C89_profits`, `C89_p2p`, `C89_p2p_price`, `C89_underflow_refuted`
* `PropertiesSize.v`: `C90_rounds`, `C90_trades`, `C90_once`, `C90_market`
* `PropertiesDouble.v`: `C91_binary64`, `C91_f64`, `C91_unique`, `C91_machine`
* `PropertiesMono.v`: `C92_muda`, `C92_uniform`, `C92_huang`, `C92_huang_winner`, `C92_market_muda`, `C92_market_uniform`, `C92_huang_larger_refuted`, `C92_huang_market_refuted`, `C92_p2p_refuted`
* `PropertiesCore.v`: `C93_quantities`, `C93_equilibrium`, `C93_clears`, `C93_no_envy`, `C93_core`, `C93_middle_refuted`, `C93_huang_no_envy`, `C93_huang_envy_refuted`, `C93_huang_blocked`, `C93_muda_no_envy`, `C93_muda_refuted`, `C93_p2p_refuted`
* `PropertiesSplit.v`: `C94_muda_names`, `C94_muda_rest`, `C94_muda_halves_refuted`, `C94_uniform`, `C94_uniform_price_refuted`, `C94_p2p`
* `PropertiesAny.v`: `C95_exact`, `C95_rounded`, `C95_runs`, `C95_all_runs`, `C95_meetings`, `C95_related`, `C95_order`, `C95_coefficient`, `C95_finite`, `C95_nan_quantity`, `C95_nan_price`, `C95_infinite`, `C95_infinite_pair`, `C95_infinite_price`
* `PropertiesIeee.v`: `C96_add`, `C96_sub`, `C96_mul`, `C96_div`, `C96_compare`, `C96_float`, `C96_p2p`, `C96_exact`, `C96_price`
* `PropertiesOps.v`: `C97_rounded`, `C97_values`, `C97_huang`, `C97_muda`, `C97_uniform`, `C97_profits`, `C97_percentages`, `C97_whole`
* `PropertiesOpsMarket.v`: `C98_rounded`, `C98_merge`, `C98_split`, `C98_run`, `C98_run_muda`, `C98_statistics`, `C98_statistics_muda`, `C98_huang_safe`, `C98_no_loss`, `C98_muda_safe`
* `PropertiesWild.v`: `C99_finite`, `C99_large_prices`, `C99_flood`, `C99_no_error`, `C99_fair`, `C99_nan`, `C99_nan_negative_refuted`
* `PropertiesGen.v`: `C100_table`, `C100_exists`, `C100_p2p`, `C100_muda`, `C100_huang`, `C100_huang_positive`, `C100_apart`, `C100_apart_shares`, `C100_apart_statistics`, `C100_notebook`, `C100_over`, `C100_loss`, `C100_huang_always_refuted`
* `PropertiesMarketLoss.v`: `C101_quantity`, `C101_loss`, `C101_ratio`, `C101_generated`, `C101_one_bid_refuted`
* `PropertiesRoundGen.v`: `C102_exact`, `C102_generate`, `C102_double`, `C102_dyadic`, `C102_runs`, `C102_distinct_refuted`
* `PropertiesWildMuda.v`: `C103_finite`, `C103_fair`, `C103_runs`, `C103_errors`, `C103_nan`, `C103_one_half`, `C103_price_refuted`, `C103_fee_refuted`
* `PropertiesWildMarket.v`: `C104_finite`, `C104_large_prices`, `C104_flood`, `C104_nan`, `C104_fair`, `C104_total`, `C104_errors`
* `PropertiesWildStats.v`: `C105_finite`, `C105_players`, `C105_market`, `C105_muda_players`, `C105_huang_players`, `C105_huang_market`, `C105_muda_market`, `C105_muda_market_refuted`
* `PropertiesWildUniform.v`: `C106_finite`, `C106_cleared`, `C106_one_sided`, `C106_fair`, `C106_nan`, `C106_infinite`, `C106_flood`, `C106_large_prices`, `C106_price_refuted`, `C106_nan_price_refuted`
* `PropertiesWildUniformStats.v`: `C107_players`, `C107_market`, `C107_market_nan`, `C107_market_refuted`
* `PropertiesWildP2P.v`: `C108_finite`, `C108_meetings`, `C108_nan`, `C108_large_prices`, `C108_price`, `C108_players`, `C108_market`, `C108_market_refuted`, `C108_price_refuted`
* `PropertiesWildVolume.v`: `C109_program`, `C109_meaning`, `C109_p2p_half`
* `PropertiesWildVolumeBound.v`: `C110_p2p`, `C110_muda`, `C110_huang`, `C110_uniform`, `C110_negative_refuted`, `C110_uniform_refuted`
* `PropertiesWildVolumeRun.v`: `C111_accept`, `C111_within`, `C111_negative_refuted`
* `PropertiesWildVolumeNan.v`: `C112_capped`, `C112_half`, `C112_more_refuted`

## 7. Files (rocq/theories)

* `QcTac.v` Exact rational arithmetic: boolean comparisons, a linear arithmetic tactic and sums over lists.
* `Num.v` Floating point values as they occur in curves and clearing prices: exact rationals extended with the IEEE special values that the code can produce ([np.inf] in pymarket/bids/demand_curves.py:74,148 and whatever arithmetic makes of it).
* `ModelBase.v` Model of the storage layer: bids, dataframes, transactions.
* `ModelCurves.v` Model of pymarket/bids/demand_curves.py.
* `ModelHuang.v` Model of pymarket/mechanisms/huang_auction.py.
* `ModelMuda.v` Model of pymarket/mechanisms/muda_auction.py and pymarket/utils/decorators.py.
* `ModelP2P.v` Model of pymarket/mechanisms/p2p_random.py.
* `ModelMerge.v` Model of pymarket/bids/processing.py and pymarket/transactions/processing.py.
* `ModelMarket.v` Model of pymarket/mechanisms/mechanism.py and pymarket/market.py.
* `ModelStats.v` Model of pymarket/statistics/*.py and of [Market.statistics].
* `ModelDatasets.v` Model of pymarket/datasets/uniform_bidders.py.
* `Sorter.v` A concrete (stable insertion) sorter: shows that [sorter] is inhabited and is used in examples.
* `Conform.v` The worked examples of the documentation (doctests and unit tests of /repo) replayed in the model.
* `NumFacts.v` Order facts on extended numbers.
* `ListFacts.v` Generic list lemmas.
* `Spec.v` Specifications used in the statements of the properties.
* `CurveFacts.v` Facts about demand and supply curves.
* `IntersectFacts.v` Facts about [intersect_stepwise].
* `SpecMarket.v` Specifications about call sequences and statistics used in the statements of the properties.
* `StoreFacts.v` Facts about the storage layer and the market session.
* `PropertiesStore.v` Properties C01, C02: bids and transactions are append-only logs.
* `PropertiesCurves.v` Properties C03-C07 and C44: demand and supply curves, their values and their intersection.
* `UpdateFacts.v` Facts about [update_quantity]: equal reduction (water-filling).
* `SpecTrade.v` Specifications about lists of transactions for a table of bids.
* `TradeFacts.v` Facts about the specifications of SpecTrade.v.
* `HuangFacts.v` Facts about [huang_auction].
* `PropertiesHuang.v` Properties C08 - C13: the Huang auction on a table of bids.
* `SpecMerge.v` Specifications for merging bids of equal (rounded) price and for splitting transactions back.
* `MergeFacts.v` Facts about bids/processing.py and transactions/processing.py.
* `HuangMarketFacts.v` Facts about [Market.run("huang")]: merge, clear, split.
* `PropertiesMerge.v` Properties C14 - C18: merging bids of equal price, splitting transactions, Market.run("huang").
* `P2PFacts.v` Facts about [p2p_random], part 1: the loop.
* `SpecAlloc.v` Allocations: how much each buying bid buys from each selling bid.
* `P2PTrades.v` Facts about [p2p_random], part 2: the transactions.
* `AllocFacts.v` Optimal allocations: welfare through a clearing price, volume through a cover.
* `CoverFacts.v` The largest volume that compatible bids can trade: a cover attains it.
* `LPFacts.v` The linear programs of the statistics are the allocation problems of SpecAlloc.v.
* `PropertiesP2P.v` Properties C28 - C33: the p2p mechanism.
* `FillFacts.v` Greedy filling of a quantity from an ordered list, and the positions found by cumsum/argmax.
* `SpecMuda.v` Specifications for markets that clear one half at a given price: gains, fillings, fees.
* `MudaSide.v` One side of a MUDA half: the cut made by [get_trading_bids] and the fee of [compute_fee].
* `MudaHalf.v` One half of the MUDA market, cleared at an exogenous price.
* `MudaSolve.v` [solve_market_side_with_exogenous_price]: what is traded and what is charged.
* `MudaOutcome.v` The outcome of one half in terms of the specifications only.
* `MudaFacts.v` The MUDA mechanism as a whole.
* `MudaTruth.v` No user with bids in one half and on one side gains by misreporting.
* `MudaPrice.v` When the price of a half is finite and what it achieves.
* `MudaErrors.v` When [muda] raises.
* `MudaTop.v` The outcome of [muda] and of one half in terms of the specifications.
* `SortFacts.v` Sorting by price leaves no freedom when the prices are distinct.
* `MudaWitness.v` Concrete runs used to refute C26, C27 and C43.
* `PropertiesMuda.v` Properties C19-C27 (MUDA) and C43 (ties in the sort).
* `SpecStats.v` Specifications for the statistics: gains, payments, surplus.
* `StatsFacts.v` Facts about the join of transactions and bids, profits and surplus.
* `FairFacts.v` What is common to the outcomes of all mechanisms, and its consequences for the statistics.
* `FairRuns.v` The outcome of every mechanism is fair in the sense of FairFacts.
* `StatsTop.v` The statistics of any market reached by a sequence of calls.
* `Solver.v` A linear programming solver (Fourier-Motzkin elimination), proved to satisfy [solver_ok]: the assumption on pulp made in the statements about the statistics is satisfiable, and examples can be computed with it.
* `MarketFacts.v` Facts about [Market.run] and [Market.statistics].
* `DatasetFacts.v` Facts about the generator of random bids.
* `StatsWitness.v` Witnesses for the refuted statements about the statistics.
* `PropertiesStats.v` Properties C34 - C42: statistics, [Market.run] and the generated data sets.
* `CurveTop.v` The exact values returned by [get_value_stepwise] and [intersect_stepwise].
* `SpecHuang.v` Specifications for the Huang auction.
* `HuangTop.v` The price setters, the competitive quantity and the rationing of [huang_auction].
* `HuangTruth.v` A user with a single bid cannot gain from misreporting its price in the Huang auction.
* `HuangMarketTop.v` [Market.run("huang")] described on the submitted bids: prices, traders and quantities.
* `HuangMarketTruth.v` [Market.run("huang")] and truthfulness.
* `HuangWitness.v` Concrete runs used to refute truthfulness of the Huang auction in general (C47).
* `PropertiesHuangMore.v` Properties C45 - C47: price setters, rationing and incentives of the Huang auction.
* `SpecP2P.v` What the peer to peer mechanism does, stated on its transactions: meetings, rounds and schedules.
* `P2PSchedule.v` Facts about [p2p_random], part 3: its results are exactly the stopped schedules of SpecP2P.v.
* `PropertiesP2PMore.v` Property C48: the results of the peer to peer mechanism are exactly the stopped schedules.
* `PriceExact.v` The exact value of [find_competitive_price].
* `SpecFee.v` Who is charged a fee by MUDA, and which positions a list of fees has.
* `MudaIndex.v` When MUDA raises IndexError.
* `MoreFacts.v` Facts for PropertiesMore.v: the cut of a side, dispatch of mechanisms, grid of the generator, traded volume of any list of transactions, extended numbers.
* `PropertiesMore.v` Properties C49 - C52, and sharper statements for C36, C40 and C41.
* `ConformDocs.v` The notebooks of /repo/docs replayed in the model.
* `ModelUniform.v` Model of the uniform price mechanism that docs/new_mechanism.ipynb develops as the example of how to add a mechanism to the library (cell "def uniform_price_mechanism", lines 163-225 of the file, and the wrapping class and registration, lines 238-268).
* `UniformFacts.v` The outcome of the uniform price mechanism.
* `UniformTop.v` The uniform price mechanism is efficient, and what follows.
* `UniformWitness.v` Witnesses for the uniform price mechanism and the truthfulness of p2p.
* `PropertiesUniform.v` Properties C53 - C54: the uniform price mechanism of the documentation, p2p and truthfulness.
* `ModelRound.v` The mechanisms of /repo in rounded arithmetic.
* `ModelFloat.v` The rounding of IEEE 754 binary64 to nearest, ties to even, with an unbounded exponent: the arithmetic of python floats and numpy as long as no result overflows or is subnormal.
* `RoundFacts.v` Facts about rounded arithmetic: sums, cumulative sums, and the exact arithmetic as a special case.
* `SpecRound.v` What the mechanisms do in rounded arithmetic, stated on transactions.
* `RoundP2P.v` Facts about the peer to peer mechanism in rounded arithmetic.
* `RoundHuang.v` Facts about the Huang auction in rounded arithmetic.
* `RoundError.v` How far apart the two sides of the rounded Huang auction can be.
* `RoundMuda.v` Facts about MUDA in rounded arithmetic.
* `RoundTop.v` The statements about the rounded mechanisms put together, and runs in double precision.
* `RoundWitness.v` Runs in double precision in which a statement true of the exact mechanism fails.
* `PropertiesRound.v` Properties C55 - C57: the mechanisms in rounded arithmetic, in particular in double precision.
* `ModelPlot.v` Model of pymarket/plot and of [Market.plot], [Market.plot_method]: the data handed to the drawing calls.
* `SpecPlot.v` Specifications for the figures.
* `PlotFacts.v` What the figures of demand and supply show.
* `PlotGraph.v` The graph of trades.
* `PlotTop.v` The figures of a market after a run.
* `PlotWitness.v` Figures that do not show what they are said to show.
* `PropertiesPlot.v` Properties C58 - C60: what the figures show.
* `SpecUnits.v` The same market in other units, and results in other units.
* `UnitFacts.v` Change of units: curves and their intersection.
* `UnitMech.v` Change of units: the mechanisms.
* `UnitMarket.v` Change of units and of attributes: [Market.run].
* `UnitWitness.v` Concrete runs for C61 - C63.
* `UnitStats.v` Change of units: the statistics.
* `UnitTop.v` Change of units, attributes and names: statements used in PropertiesUnits.v
* `MergeSample.v` The attributes sampled for the merged bids can be any combination of those of the members.
* `PropertiesUnits.v` Properties C61 - C63: attributes that do not matter, change of units, names.
* `SpecExact.v` When a competitive price exists and what it is, and which meetings make no deal.
* `PriceIff.v` Exactly when the competitive price is finite.
* `ExactFacts.v` Exact forms: existence and value of the competitive price, the reported fee, the active flag.
* `SpecOrder.v` The outcome of a run without the positions of the bids.
* `MarketOrder.v` [Market.run] with the Huang auction depends neither on the order of the bids nor on the sorting algorithm.
* `PropertiesExact.v` Sharper forms of C26, C27, C33, C43 and C61 - C63.
* `P2POrder.v` The outcomes of the peer to peer mechanism do not depend on the order of the bids.
* `MudaOrder.v` MUDA does not depend on the order of the bids when the prices of each side differ: the same split into halves gives the same result.
* `OrderWitness.v` A MUDA run with two equal bids that depends on their order.
* `PropertiesOrder.v` C64: the order in which the bids were submitted.
* `SpecSign.v` Statements about bids whose prices may be negative, and about raising all prices by the same amount.
* `SignFacts.v` The auctions when prices may be negative.
* `RaiseFacts.v` Raising all prices by the same amount.
* `RaiseMech.v` Raising all prices by the same amount: the mechanisms.
* `SignWitness.v` Runs with negative prices, and runs that change when all prices are raised.
* `PropertiesSign.v` C65: prices may be negative.
* `SpecAlias.v` Statements about a person who submits any bids under any number of names.
* `AliasBest.v` The best total gain: concave in the quantity, and bidders of one side are substitutes.
* `AliasTruth.v` A person with bids on one side and in one half of MUDA gains nothing by any other bids under any names.
* `AliasWitness.v` Runs of MUDA in which a lie pays: bids on both sides, in both halves, a second name in the other half, two users together.
* `PropertiesAlias.v` C67: which lies pay in MUDA.
* `HuangLoss.v` How much welfare the Huang auction loses.
* `MudaWelfare.v` No other way of trading at the price of a half, among the bids that accept this price, gives more welfare.
* `EffWitness.v` Runs that lose most of the welfare.
* `PropertiesEfficiency.v` Property C68: how much of the possible trade and welfare the mechanisms realise.
* `BidChange.v` Adding and removing bids.
* `BidAdd.v` More bids never lower the optima of the statistics; runs in which more bids lower a price or the traded quantity.
* `PropertiesChange.v` Property C69: what adding and removing bids can change.
* `PlotLabels.v` The labels of the graph of trades when users may have several bids.
* `SplitFees.v` When splitting the transactions of merged bids returns.
* `ModelRoundMarket.v` Merging, splitting and [Market.run("huang")] in rounded arithmetic; see ModelRound.v for what a [rounding] and an [adder] are.
* `SpecRoundMarket.v` Specifications for merging and splitting in rounded arithmetic.
* `RoundMerge.v` Facts about merging and splitting in rounded arithmetic.
* `RoundMarket.v` Facts about [Market.run("huang")] in rounded arithmetic: merge, clear, split.
* `RoundMarketTop.v` The statements about [Market.run("huang")] in rounded arithmetic put together.
* `RoundMarketWitness.v` [Market.run("huang")] in double precision: what the rounding of prices does, and a run in which the quantities do not add up.
* `PropertiesRoundMarket.v` Property C70: [Market.run("huang")] (merging bids, Huang's auction, splitting transactions) in rounded arithmetic, in particular in double precision.
* `SpecErrors.v` Specifications for what the helper functions raise.
* `ErrorFacts.v` What the helper functions raise, and when.
* `PropertiesErrors.v` Property C71: what the helper functions raise outside their preconditions, and exactly when.
* `ModelRoundStats.v` The statistics of /repo in rounded arithmetic; see ModelRound.v for what a [rounding] and an [adder] are.
* `SpecRoundStats.v` Specifications for the statistics in rounded arithmetic: the sizes the errors are measured against.
* `RoundStats.v` The statistics in rounded arithmetic: errors and signs.
* `RoundStatsTop.v` Statements about the statistics in rounded arithmetic.
* `RoundStatsMarket.v` The profits after each of the mechanisms in rounded arithmetic, and runs in double precision.
* `PropertiesRoundStats.v` Property C72: the statistics in rounded arithmetic, in particular in double precision.
* `SpecTables.v` Specifications for tables whose quantities can have any sign and whose users can be any integers.
* `TableFacts.v` The mechanisms on tables whose quantities can have any sign.
* `TableMuda.v` MUDA on tables whose quantities can have any sign.
* `TableP2P.v` The p2p mechanism on tables whose quantities can have any sign and whose labels can repeat.
* `PropertiesTables.v` Property C73: what the mechanisms raise, and exactly when, on tables whose quantities can have any sign and whose users can be any integers.
* `SpecShort.v` Specification for tables whose quantities can have any sign.
* `MarketTables.v` [Market.run("huang")] on bids whose quantities and prices can have any sign.
* `MarketZero.v` [Market.run("huang")] when bids may offer or ask for nothing, at prices of any sign.
* `MarketTop.v` The theorems about [Market.run] on arbitrary bids, for a market.
* `PropertiesMarketTables.v` Property C74: Market.run on stored bids whose quantities and prices can have any sign.
* `SpecBook.v` The book of a market: the bids of each side at each price, prices rounded to five decimals.
* `BookFacts.v` [Market.run("huang")] depends on the book only.
* `BookTop.v` The theorems about the book, for a market; splitting a bid.
* `PropertiesBook.v` Property C75: Market.run("huang") depends on the book only; splitting a bid changes nothing.
* `ModelRoundUniform.v` The uniform price mechanism of docs/new_mechanism.ipynb in rounded arithmetic (see ModelUniform.v and ModelRound.v).
* `RoundUniform.v` Facts about the uniform price mechanism in rounded arithmetic.
* `RoundUniformTop.v` The uniform price mechanism in rounded arithmetic: what holds exactly and what holds up to rounding.
* `RoundUniformWitness.v` Runs of the uniform price mechanism in double precision.
* `PropertiesRoundUniform.v` Property C76: the uniform price mechanism of the documentation in rounded arithmetic, in particular in double precision.
* `SpecDual.v` The mirror image of a market: buyers become sellers and the price [p] becomes [M - p].
* `DualFacts.v` Curves and prices of the mirror image of a market.
* `DualHuang.v` The Huang auction on the mirror image of a market.
* `DualMuda.v` MUDA on the mirror image of a market.
* `DualP2P.v` The peer to peer mechanism on the mirror image of a market.
* `DualTop.v` The uniform price mechanism on the mirror image of a market, the orders of equal prices, and what the users gain.
* `DualWitness.v` Where buyers and sellers are not treated alike.
* `PropertiesDual.v` Property C77: buyers and sellers are treated alike.
* `SpecCompare.v` How much can be traded at a single price.
* `CompareVolume.v` The largest quantity that can be traded at one price is at least half of what can be traded at all.
* `CompareMuda.v` MUDA never trades more than can be traded at one price.
* `CompareHuang.v` Bid by bid and user by user the Huang auction gives no more than the uniform price mechanism.
* `CompareTop.v` What the mechanisms trade, measured by the best quantity at one price.
* `CompareWitness.v` How far the bounds between the mechanisms are reached.
* `PropertiesCompare.v` Property C78: the mechanisms compared on the same bids.
* `SpecOrdinal.v` The same market with prices on another scale.
* `OrdinalFacts.v` Prices on another scale: curves, the Huang auction, the peer to peer and the uniform price mechanisms.
* `OrdinalTop.v` Prices on another scale: the uniform price mechanism, the largest volume and the statistics.
* `PropertiesOrdinal.v` Property C79: which results depend only on the order of the prices.
* `SpecChance.v` Chances: averages over all outcomes of the random generator, and the law of peer to peer trading stated on its meetings.
* `ChanceFacts.v` Averages over all draws of the random generator.
* `ChancePick.v` The chances of the picks of one round of [p2p_random].
* `ChanceP2P.v` The law of [p2p_random]: the share of the draws that give a schedule is the product of the chances of its picks.
* `ChanceOrder.v` The chances of peer to peer trading do not depend on the order of the bids or on who submitted them.
* `ChanceRound.v` Who meets whom in the first round of [p2p_random].
* `ChanceTop.v` Chances of meetings in [p2p_random] and in Market.run.
* `ChanceMoney.v` The average payment in peer to peer trading when all bids have the same quantity and all prices are compatible.
* `PropertiesChance.v` Property C80: the chances of the peer to peer mechanism.
* `SpecFlips.v` Averages over the random split of MUDA.
* `FlipsFacts.v` Averages over flips.
* `FlipsSplit.v` The chance that both sides of a table are split between the halves, and the draw of numpy.
* `FlipsMuda.v` MUDA on average over its random split.
* `FlipsOrder.v` The average over the random split of MUDA does not depend on the order of submission when prices differ.
* `FlipsWitness.v` Lies that pay on average over the random split of MUDA, and the advantage of being first.
* `PropertiesFlips.v` Property C81: MUDA on average over its random split.
* `RoundFee.v` The fees of MUDA in rounded arithmetic.
* `RoundFeeHalf.v` The fee of one user in rounded arithmetic.
* `SpecRoundFee.v` What a fee of MUDA is in rounded arithmetic: the externality, up to an error.
* `RoundFeeTop.v` The fees of MUDA in rounded arithmetic: one half and the whole mechanism.
* `RoundFeeMuda.v` The fees of one half of MUDA and of the whole mechanism in rounded arithmetic.
* `PropertiesRoundFee.v` C82: the fees of MUDA in floating point are the exact externalities, up to a rounding error.
* `SpecGrid.v` Data on which a rounding makes no error: multiples of a step, below a bound.
* `GridFacts.v` Sums, curves and crossings of data on which a rounding makes no error.
* `GridMuda.v` MUDA on data on which a rounding makes no error.
* `GridP2P.v` Peer to peer trading and the uniform price mechanism on data on which a rounding makes no error.
* `GridHuang.v` Huang's auction on data on which a rounding makes no error: the same bids trade at the same prices, and the quantities are wrong only by the division of the excess among the bids of the longer side.
* `GridStats.v` The statistics on transactions on which a rounding makes no error.
* `GridTop.v` Dyadic data in double precision: the results are those of exact arithmetic.
* `PropertiesGrid.v` C83: data that double precision handles without error are cleared as in exact arithmetic.
* `LoneTop.v` When [Market.run("huang")] raises [KeyError].
* `PropertiesLone.v` Property C84: Market.run("huang") on a market with bids to buy at a single price.
* `NoTradeTop.v` The statistics of markets in which nothing was traded: statements used in PropertiesNoTrade.v
* `PropertiesNoTrade.v` Property C85: the statistics of a market in which nothing was traded.
* `SpecRoundErrors.v` Specifications for what the helper functions raise in rounded arithmetic.
* `RoundErrorsTop.v` What the helper functions raise in rounded arithmetic, and how the rounded merge samples.
* `PropertiesRoundErrors.v` Property C86: what the helper functions raise in rounded arithmetic, and exactly when, for every rounding; and the attributes that the rounded merge samples.
* `SpecSep.v` Tables on which rounding cannot change who trades: sums of the best bids of the two sides are not close.
* `MoveFacts.v` The intersection of two curves depends only on the order of their abscissae.
* `SepFacts.v` Rounding does not move the crossing of curves whose breakpoints are not close.
* `SepUpdate.v` The quantities of the rationed side in rounded arithmetic are near the exact ones.
* `SepHuang.v` On separated bids the rounded auction of Huang et al.
* `SepPrice.v` On separated bids rounding does not change the competitive price at all.
* `SepMuda.v` On separated halves the rounded MUDA makes the trades of the exact one, up to small differences of the quantities.
* `SepTop.v` Rounding on separated bids: the mechanisms.
* `SepWitness.v` A test for separated tables, and runs in double precision.
* `PropertiesSep.v` Property C87: if no sum of best buyers is close to a sum of best sellers, rounding does not change the outcome of the Huang auction, the MUDA auction and the uniform price mechanism except for the quantities, and these only a little.
* `SepP2P.v` Rounding in peer to peer trading on separated bids.
* `SepP2PWitness.v` Peer to peer trading in double precision: a near tie, and a test for separated tables.
* `PropertiesSepP2P.v` Property C88: rounding in peer to peer trading.
* `ModelBounded.v` The rounding of IEEE 754 binary64 to nearest, ties to even, with the exponents it really has: below [2^-1022] the numbers are the multiples of [2^-1074] (gradual underflow), and no number is larger than [big = (2^53 - 1) 2^971].
* `SpecBounded.v` Prices far enough from zero for binary64: zero, or at least twice the smallest normal number.
* `BoundFacts.v` Double precision with bounded exponents: where it is that with unbounded exponents, and the mechanisms in it.
* `BoundP2P.v` Peer to peer trading with bounded exponents: quantities never underflow or overflow.
* `BoundTop.v` Double precision with bounded exponents: whole numbers, statistics, and what happens below the normal numbers.
* `PropertiesBounded.v` C89: the exponents of double precision are bounded; what this changes and what it does not.
* `SizeP2P.v` How long the results of peer to peer trading are: rounds, meetings and trades.
* `SizeTop.v` How many transactions a run makes.
* `PropertiesSize.v` Property C90: how large the result of a run can be.
* `SpecDouble.v` Rounding to nearest, ties to even, as in IEEE 754: independent of the way the roundings of the model compute.
* `DoubleFacts.v` The two roundings of the model are rounding to nearest, ties to even, and there is no other.
* `PropertiesDouble.v` Property C91: the roundings of the model are rounding to nearest, ties to even.
* `SpecMono.v` Specification for a bid that is replaced by a better one.
* `MonoFacts.v` A bid that becomes better does not trade less.
* `MonoHuang.v` In the Huang auction a bid that improves its price does not trade less; a winner changes nothing at all.
* `MonoTop.v` C92 as run by the market, and the cases where it fails.
* `PropertiesMono.v` Property C92: a bid that offers a better price does not trade less.
* `SpecCore.v` What a bid gains with its transactions, who would rather have the trade of somebody else, and groups of bids that do better by trading among themselves.
* `CoreFacts.v` Equilibrium, envy and blocking groups of bids.
* `CoreTop.v` Envy and blocking groups in the Huang auction and in MUDA.
* `CoreWitness.v` Tables where somebody would rather have the transaction of another bid, or a pair does better on its own.
* `PropertiesCore.v` Property C93: competitive equilibrium, envy, and groups of bids that could do better on their own.
* `SpecSplit.v` One bid sent as several.
* `SplitFacts.v` One bid sent as several: what does not change.
* `SplitMuda.v` One bid sent as two under different names, in one half of MUDA: the two together do not gain.
* `SplitTop.v` One bid sent as two: MUDA and the uniform price mechanism.
* `SplitUniform.v` One bid sent as several: the uniform price mechanism.
* `SplitChance.v` One bid sent as several: the chances of meeting in peer to peer trading.
* `SplitWitness.v` Tables where sending a bid in pieces pays.
* `PropertiesSplit.v` Property C94: one bid sent as several, possibly under other names.
* `ModelAny.v` pymarket/mechanisms/p2p_random.py once more, for any numbers.
* `SpecAny.v` What a run of peer to peer trading is, for any numbers, without the masks and positions of the code.
* `SpecAnyRel.v` When two runs of peer to peer trading on different kinds of numbers are the same up to relations between prices [SP], quantities [SQ] and prices of transactions [SX].
* `AnyFacts.v` Facts about [a_run]: its results are exactly the runs of SpecAny.v.
* `AnyTop.v` Consequences for [a_run]: the other models, NaN, relations between runs.
* `AnyRel.v` Related numbers give related runs; sums of numpy; NaN.
* `AnyNum.v` Peer to peer trading with infinite values.
* `AnyInf.v` Peer to peer trading with infinite quantities and prices.
* `AnyLast.v` Peer to peer trading on any numbers: the statements of PropertiesAny.v.
* `PropertiesAny.v` Property C95: peer to peer trading on any numbers; NaN and infinite values.
* `SpecIeee.v` What IEEE 754 binary64 says about the result of an operation, in terms of the exact result.
* `IeeeRound.v` The rounding of [Floats.SpecFloat] is [binary64].
* `IeeeOps.v` Sums, differences, products, quotients and comparisons of [Floats.SpecFloat].
* `SpecIeeeRun.v` A run of peer to peer trading on doubles that has the values of a run on rationals.
* `IeeeAny.v` Peer to peer trading on doubles.
* `IeeeTop.v` The statements of PropertiesIeee.v.
* `PropertiesIeee.v` Property C96: the arithmetic of IEEE 754 doubles is the rounding of the model, and peer to peer trading on doubles is the rounded model.
* `ModelOps.v` The mechanisms of /repo for given operations of arithmetic.
* `SpecOps.v` A table of doubles that are not too large.
* `OpsFacts.v` Operations on doubles are rounded operations while the values stay below a bound.
* `OpsRun.v` The mechanisms on doubles are the mechanisms with [binary64], as long as quantities and prices are not too large.
* `OpsStats.v` The statistics on doubles.
* `OpsTop.v` Doubles and rounded operations: the statements for tables.
* `PropertiesOps.v` Property C97: Huang's auction, MUDA, the uniform price mechanism and the statistics on IEEE 754 doubles.
* `ModelOpsMarket.v` Merging, splitting and [Market.run("huang")] for given operations of arithmetic; ModelRoundMarket.v with the operations of ModelOps.v.
* `OpsMarket.v` Merging, splitting and [Market.run("huang")] on doubles.
* `OpsMarketTop.v` [Market.run] and [Market.statistics] on doubles.
* `PropertiesOpsMarket.v` Property C98: [Market.run] and [Market.statistics] on IEEE 754 doubles, from the table of bids to the profits.
* `ModelWild.v` pymarket/bids/demand_curves.py and pymarket/mechanisms/huang_auction.py on tables whose prices can be infinite or NaN.
* `SpecWild.v` What is said about tables with infinite and NaN prices.
* `WildFacts.v` The intersection of two curves with any values, and the curves of tables with infinite and NaN prices.
* `WildSort.v` Sorting tables with infinite and NaN prices.
* `WildCap.v` The Huang auction with infinite prices: the same as with prices that are large enough, unless too much is wanted at any price.
* `WildTop.v` The Huang auction with infinite prices is the auction with large prices; what every such auction guarantees.
* `WildNan.v` The Huang auction with NaN prices: the NaN bids are left out, or the auction does nothing.
* `PropertiesWild.v` C99: infinite and NaN prices in the Huang auction.
* `SpecGen.v` Specification for markets whose bids come from the data set generator.
* `GenFacts.v` Facts about markets whose bids come from the data set generator.
* `GenIdle.v` Markets in which every bid is below every ask, or every bid is above every ask.
* `GenTop.v` Runs and statistics of markets whose bids come from the data set generator.
* `PropertiesGen.v` C100.
* `SpecMarketLoss.v` Half of the last decimal that [Market.run] keeps of a price.
* `MarketLoss.v` What [Market.run("huang")] gives up.
* `MarketLossTop.v` The statements about [Market.run("huang")] and about generated markets.
* `PropertiesMarketLoss.v` C101.
* `ModelRoundDatasets.v` Model of pymarket/datasets/uniform_bidders.py in rounded arithmetic.
* `SpecRoundGen.v` Bids made by the generator in rounded arithmetic.
* `RoundGen.v` Facts about the generator of random bids in rounded arithmetic.
* `RoundGenTop.v` The generator of random bids in rounded arithmetic: what it returns.
* `RoundGenRuns.v` Runs on bids generated in rounded arithmetic; double precision.
* `PropertiesRoundGen.v` C102.
* `ModelWildMuda.v` pymarket/mechanisms/muda_auction.py on tables whose prices can be infinite or NaN (see ModelWild.v).
* `SpecWildMuda.v` What is said about MUDA on tables with infinite and NaN prices.
* `WildMuda.v` MUDA on any prices: one half, compared with the main model.
* `WildMudaHalf.v` What a half guarantees on any prices.
* `WildMudaTop.v` MUDA on any prices: the whole mechanism.
* `WildMudaFin.v` MUDA on tables with rational prices is MUDA of the main model.
* `PropertiesWildMuda.v` C103: infinite and NaN prices in MUDA.
* `ModelWildMarket.v` [Market.run('huang')] on bids whose prices can be infinite or NaN: pymarket/bids/processing.py, transactions/processing.py and mechanisms/mechanism.py on the tables of ModelWild.v.
* `SpecWildMarket.v` What is said about [Market.run('huang')] with infinite and NaN prices.
* `WildMarket.v` Merging and splitting of bids with infinite and NaN prices.
* `WildMarketTop.v` [Market.run('huang')] with infinite and NaN prices: nobody gets more than the bid, NaN bids are left out, too large demands at any price.
* `WildMarketCap.v` [Market.run('huang')] with infinite prices is the run with large prices; NaN bids have no effect.
* `WildMarketNan.v` [Market.run('huang')] with infinite and NaN prices: NaN bids have no effect, tables with rational prices, errors.
* `PropertiesWildMarket.v` C104: [Market.run('huang')] with infinite and NaN prices.
* `WildMarketOnce.v` [Market.run('huang')] with infinite and NaN prices: each bid has at most one transaction.
* `ModelWildStats.v` pymarket/statistics/profits.py on tables and transactions whose prices can be infinite or NaN (see ModelWild.v).
* `SpecWildStats.v` What is said about profits with infinite and NaN prices.
* `WildStats.v` Profits with infinite and NaN prices.
* `WildStatsMaker.v` The profit of the market maker with infinite and NaN prices, after the auctions.
* `PropertiesWildStats.v` C105: profits with infinite and NaN prices.
* `ModelWildUniform.v` The uniform price mechanism of docs/new_mechanism.ipynb (see ModelUniform.v) on tables whose prices can be infinite or NaN.
* `SpecWildUniform.v` What is said about the uniform price mechanism on tables with infinite and NaN prices.
* `WildUniform.v` The uniform price mechanism on tables with infinite and NaN prices: what a run does.
* `WildUniformTop.v` The uniform price mechanism on tables with infinite and NaN prices: fairness, large prices, rational prices.
* `PropertiesWildUniform.v` C106: infinite and NaN prices in the uniform price mechanism.
* `WildUniformStats.v` Profits after the uniform price mechanism, with infinite and NaN prices.
* `PropertiesWildUniformStats.v` C107: profits after the uniform price mechanism with infinite and NaN prices.
* `ModelWildP2P.v` pymarket/mechanisms/p2p_random.py on tables whose prices can be infinite or NaN (see ModelWild.v).
* `SpecWildP2P.v` What is said about peer to peer trading with infinite and NaN prices.
* `WildP2P.v` Peer to peer trading and its profits with infinite and NaN prices.
* `PropertiesWildP2P.v` C108: infinite and NaN prices in peer to peer trading, and the profits after it.
* `ModelWildVolume.v` pymarket/statistics/maximum_traded_volume.py on tables whose prices can be infinite or NaN (see ModelWild.v).
* `SpecWildVolume.v` What is said about the traded volume with infinite and NaN prices.
* `WildVolume.v` The traded volume with infinite and NaN prices.
* `PropertiesWildVolume.v` C109: maximum_traded_volume and percentage_traded with infinite and NaN prices.
* `SpecWildVolumeBound.v` What is said about the bounds of the traded volume with infinite and NaN prices.
* `WildVolumeBound.v` With infinite and NaN prices no more is traded than can be.
* `PropertiesWildVolumeBound.v` C110: with infinite and NaN prices, percentage_traded stays between 0 and 1.
* `WildVolumeRun.v` [Market.run('huang')] with infinite and NaN prices: who trades could have traded without rounding, and no more is traded than can be.
* `PropertiesWildVolumeRun.v` C111: Market.run('huang') with infinite and NaN prices: who trades with whom, and how much.
* `WildVolumeNan.v` Peer to peer trading with NaN prices: for who meets and how much is traded, only comparisons of a seller with a buyer matter.
* `PropertiesWildVolumeNan.v` C112: peer to peer trading reaches one half of the volume that can be traded, also when some prices are NaN.

## 8. Testing the theorems against wrong programs

`seeded/LOG.jsonl` has one line per seeded edit. Each edit was made in a scratch copy, where a broken
proof is replaced by a marked assumption so that the files after it can be compiled.
The lines come from these kinds of runs, named in the field `run`:

* Whole rebuild: `theorems_failed` lists the property theorems that rest on a marked assumption
  (`Print Assumptions`) after everything was rebuilt.
* Stopped at the first break: most edits were run only until the first proof step broke that some
  property theorem uses. `theorems_failed` then lists the theorems that use this step, read from the
  references Coq records. Other theorems may fail as well and are not listed.
* Aimed at theorems: the later edits written by hand name in `theorems_aimed_at` the theorems they should
  break. They were run until all of these rested on a broken step, or to the end.

What the log does not show. A broken step means that a proof script fails, not that a statement became
false: a shared lemma, or a script that depends on the shape of a definition, makes more theorems fail
than those whose statement excludes the edit. For edits written by hand the claim was written before the
run (`claim_source`), and the statements of that claim were read when it was not among the failed ones.
For the generated one-token edits `claim_broken` was derived from `theorems_failed` after the run; it was
not compared with the statements one by one. There `detected` says only that some theorem can no longer
be proved by its script. The survivors of both kinds were all looked at: they are explained in `note`,
or the theorems in `theorems_tightened` were added or strengthened.

A second kind of run looks at the statements and not at the proof scripts. About 60 clauses of the properties
were written as Boolean functions of the model and evaluated on a fixed set of small tables of bids, in the
model with the edit applied to its current text. On the unedited model all of them are true.
`checks_that_evaluate_to_false` lists the clauses that an edit makes false, with the number of cases: for these
edits a consequence of the statements itself is wrong in the edited model, whatever the proofs look like.
An empty list shows nothing, since the tables are few and most clauses of the later properties (rounding,
floating point, infinite prices) have no Boolean version. The field is absent if the text of the edit occurs no
longer or more than once, is in a file that the clauses do not use, or does not compile.
Of the 1859 edits in the log, 1345 were evaluated in this way; 936 of these make at least one clause false.
