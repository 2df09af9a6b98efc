-Q theories Verif
theories/M_Base.v
theories/M_Graph.v
theories/S_Graph.v
theories/L_Graph.v
theories/L_Graph2.v
theories/L_Graph3.v
theories/L_Ops.v
theories/M_GraphEx.v
theories/L_Graph4.v
theories/P_Graph.v
theories/M_Connector.v
theories/S_Connector.v
theories/L_Connector.v
theories/P_Connector.v
theories/M_MPI.v
theories/S_MPI.v
theories/L_MPI.v
theories/L_MPI2.v
theories/P_MPI.v
theories/M_Roles.v
theories/L_Roles.v
theories/P_Roles.v
theories/M_Journal.v
theories/S_Journal.v
theories/L_Journal.v
theories/L_Journal2.v
theories/L_Journal3.v
theories/P_Journal.v
theories/M_APM.v
theories/L_APM.v
theories/P_APM.v
theories/M_Num.v
theories/L_Num.v
theories/M_Rejection.v
theories/S_Rejection.v
theories/L_Rejection.v
theories/P_Rejection.v
theories/M_Seeds.v
theories/S_Seeds.v
theories/L_Seeds.v
theories/P_Seeds.v
theories/M_Infer.v
theories/S_Infer.v
theories/L_Infer.v
theories/P_Infer.v
theories/M_PMCABC.v
theories/S_PMCABC.v
theories/L_PMCABC.v
theories/P_PMCABC.v
theories/M_RSMCABC.v
theories/S_RSMCABC.v
theories/L_RSMCABC.v
theories/P_RSMCABC.v
theories/M_APMCABC.v
theories/S_APMCABC.v
theories/L_APMCABC.v
theories/P_APMCABC.v
theories/M_SMCABC.v
theories/S_SMCABC.v
theories/L_SMCABC.v
theories/P_SMCABC.v
theories/M_Subsim.v
theories/S_Subsim.v
theories/L_Subsim.v
theories/P_Subsim.v
theories/M_SABC.v
theories/S_SABC.v
theories/L_SABC.v
theories/P_SABC.v
theories/M_XReal.v
theories/M_PMC.v
theories/S_PMC.v
theories/L_PMC.v
theories/P_PMC.v
theories/M_MCMC.v
theories/S_MCMC.v
theories/L_MCMC.v
theories/P_MCMC.v
theories/M_Transform.v
theories/S_Transform.v
theories/L_Transform.v
theories/P_Transform.v
theories/M_Scaler.v
theories/P_Scaler.v
theories/M_Bounds.v
theories/P_Bounds.v
theories/M_Kernel.v
theories/S_Kernel.v
theories/L_Kernel.v
theories/P_Kernel.v
theories/M_Stats.v
theories/S_Stats.v
theories/L_Stats.v
theories/P_Stats.v
theories/M_Distance.v
theories/S_Distance.v
theories/L_Distance.v
theories/P_Distance.v
theories/L_PosDef.v
theories/M_MMD.v
theories/S_MMD.v
theories/L_MMD.v
theories/P_MMD.v
theories/M_KNN.v
theories/S_KNN.v
theories/L_KNN.v
theories/P_KNN.v
theories/M_Joint.v
theories/S_Joint.v
theories/L_Joint.v
theories/P_Joint.v
theories/M_Cached.v
theories/P_Cached.v
theories/M_Similarity.v
theories/S_Similarity.v
theories/L_Similarity.v
theories/P_Similarity.v
theories/M_Wass.v
theories/S_Wass.v
theories/L_Wass.v
theories/P_Wass.v
theories/M_Priors.v
theories/S_Priors.v
theories/L_Priors.v
theories/P_Priors.v
theories/P_Uniform.v
theories/M_NN.v
theories/S_NN.v
theories/L_NN.v
theories/P_NN.v
theories/M_Generate.v
theories/P_Generate.v
theories/M_Select.v
theories/P_Select.v
theories/M_Trainer.v
theories/P_Trainer.v
theories/M_Losses.v
theories/P_Losses.v
theories/M_Learn.v
theories/P_Learn.v
theories/M_ScoreTrain.v
theories/P_ScoreTrain.v
theories/M_Sliced.v
theories/S_Sliced.v
theories/P_Sliced.v
theories/M_Cov.v
theories/S_Cov.v
theories/P_Cov.v
theories/M_Syn.v
theories/S_Syn.v
theories/P_Syn.v
theories/M_PenLik.v
theories/S_PenLik.v
theories/P_PenLik.v
theories/S_Fresh.v
theories/L_Graph5.v
theories/L_Graph6.v
theories/L_Graph7.v
theories/L_Respect.v
theories/P_GraphExact.v
theories/M_Jacobian.v
theories/S_Jacobian.v
theories/L_Jacobian.v
theories/P_Jacobian.v
theories/M_Pipeline.v
theories/S_Pipeline.v
theories/P_Pipeline.v
theories/P_Pipeline2.v
theories/P_SaveLoad.v
theories/M_MVPrior.v
theories/S_MVPrior.v
theories/L_MVPrior.v
theories/P_MVPrior.v
theories/P_MVPrior2.v
theories/P_MVPrior3.v
theories/M_Posterior.v
theories/S_Posterior.v
theories/L_Posterior.v
theories/L_Histogram.v
theories/P_Posterior.v
theories/P_Posterior2.v
theories/P_Posterior3.v
theories/M_Nested.v
theories/S_Nested.v
theories/L_Nested.v
theories/P_Nested.v
theories/P_Nested2.v
theories/S_Law.v
theories/P_Law.v
theories/P_Law2.v
theories/L_Law.v
theories/P_Law3.v
theories/P_Law4.v
theories/S_Gen.v
theories/L_Gen.v
theories/L_Series.v
theories/L_Hits.v
theories/L_Coin.v
theories/P_Law5.v
theories/L_PriorLaw.v
theories/S_PriorLaw.v
theories/L_PriorLaw2.v
theories/P_PriorLaw.v
theories/M_Plot.v
theories/S_Plot.v
theories/L_Plot.v
theories/P_Plot.v
theories/S_Chain.v
theories/P_Law6.v
theories/M_Spark.v
theories/S_Backend.v
theories/L_Spark.v
theories/P_Spark.v
theories/S_Anneal.v
theories/L_Anneal.v
theories/P_Law7.v
theories/M_NNTrain.v
theories/S_NNTrain.v
theories/L_NNTrain.v
theories/P_NNTrain.v
theories/M_MPIDriver.v
theories/L_MPIDriver.v
theories/P_MPIDriver.v
theories/S_Consist.v
theories/L_LLN.v
theories/L_Workers.v
theories/P_Consist.v
theories/P_Consist2.v
theories/P_Consist3.v
theories/S_Ergodic.v
theories/L_Ergodic.v
theories/P_Law8.v
theories/S_Collide.v
theories/P_Collide.v
theories/L_Shared.v
theories/P_Consist4.v
theories/P_Consist5.v
theories/S_Renew.v
theories/P_Law9.v
theories/S_Reweight.v
theories/L_Reweight.v
theories/P_Reweight.v
theories/L_Streams.v
theories/P_Reweight2.v
theories/P_Reweight3.v
theories/M_Worker.v
theories/S_Worker.v
theories/L_Worker.v
theories/P_Worker.v
theories/M_Worker2.v
theories/L_Worker2.v
theories/P_Worker2.v
theories/S_Spread.v
theories/L_Spread.v
theories/L_Spread2.v
theories/L_Spread3.v
theories/P_Spread.v
theories/M_Declared.v
theories/P_Declared.v
theories/S_Mixture.v
theories/L_Mixture.v
theories/M_TKernel.v
theories/P_TKernel.v
theories/P_Reuse.v
theories/P_Round.v
theories/P_Declared2.v
theories/M_LossPlot.v
theories/P_LossPlot.v
theories/L_Gauss.v
theories/P_Normal.v
theories/P_Threshold.v
theories/P_Generate2.v
theories/P_KNN2.v
theories/P_Reweight4.v
theories/M_MPIChunk.v
theories/P_MPIChunk.v
theories/P_Exact.v
theories/P_PenLik2.v
theories/P_NNTrain2.v
theories/P_Transform2.v
theories/P_Plot2.v
theories/P_Transform3.v
